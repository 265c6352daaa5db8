(** Model of the client's neighbourhood calibrator: src/client/Calibrator/Neighbourhood.cpp.  As in M_CCal. *)
From Verif Require Import Base M_Stat M_Neigh M_COpt M_CUtil M_CCal M_CCal2.
Local Open Scope Z_scope.

(** The elements of a member.  Simplification: the loops read them from this copy of the constant input field. *)
Definition plane (d : dims) (f : field) (e : Z) : res vec2 := mapM (fun y => mapM (fun x => f_get f y x e) (zrange 0 (d_x d))) (zrange 0 (d_y d)).
(** the loops over y and x for one member *)
Definition plane_cells (d : dims) (e : Z) : list (Z * Z * Z) := flat_map (fun y => map (fun x => (y, x, e)) (zrange 0 (d_x d))) (zrange 0 (d_y d)).
Definition for_plane (d : dims) (f : field) (e : Z) (body : field -> Z -> Z -> Z -> res field) : res field :=
  foldM (fun s c => let '(y, x, e) := c in body s y x e) f (plane_cells d e).

(** Neighbourhood.cpp:83-134: accumulated sums and counts (the counts are floats, exact here) *)
Definition csat_step (input : vec2) (i : Z) (s : vec2 * vec2z) (j : Z) : res (vec2 * vec2z) :=
  let '(values, counts) := s in
  value <- get2 input i j ;;
  let store v c := values' <- set2 values i j v ;; counts' <- set2 counts i j c ;; Ok (values', counts') in
  if (j =? 0) && (i =? 0) then
    if cvalid value then store value 1 else Ok s
  else if j =? 0 then
    v <- get2 values (i - 1) j ;; c <- get2 counts (i - 1) j ;;
    if cvalid value then store (vadd v value) (c + 1) else store v c
  else if i =? 0 then
    v <- get2 values i (j - 1) ;; c <- get2 counts i (j - 1) ;;
    if cvalid value then store (vadd v value) (c + 1) else store v c
  else
    v1 <- get2 values i (j - 1) ;; v2 <- get2 values (i - 1) j ;; v3 <- get2 values (i - 1) (j - 1) ;;
    c1 <- get2 counts i (j - 1) ;; c2 <- get2 counts (i - 1) j ;; c3 <- get2 counts (i - 1) (j - 1) ;;
    let v := vsub (vadd v1 v2) v3 in
    let c := c1 + c2 - c3 in
    if cvalid value then store (vadd v value) (c + 1) else store v c.
Definition csat (input : vec2) (nLat nLon : Z) : res (vec2 * vec2z) :=
  foldM (fun s i => foldM (csat_step input i) s (zrange 0 nLon)) (init2 nLat nLon (fz 0), init2 nLat nLon 0) (zrange 0 nLat).
(** Neighbourhood.cpp:139-176; [None]: the output is left as it is *)
Definition csat_cell (values : vec2) (counts : vec2z) (nLat nLon radius : Z) (st : cstat) (i j : Z) : res (option val) :=
  let i1 := Z.min (nLat - 1) (i + radius) in
  let j1 := Z.min (nLon - 1) (j + radius) in
  let i0 := i - radius - 1 in
  let j0 := j - radius - 1 in
  value11 <- get2 values i1 j1 ;;
  count11 <- get2 counts i1 j1 ;;
  ' (value00, value10, value01, count00, count10, count01) <-
    (if (0 <=? i0) && (0 <=? j0) then
       v00 <- get2 values i0 j0 ;; v10 <- get2 values i1 j0 ;; v01 <- get2 values i0 j1 ;;
       c00 <- get2 counts i0 j0 ;; c10 <- get2 counts i1 j0 ;; c01 <- get2 counts i0 j1 ;;
       Ok (v00, v10, v01, c00, c10, c01)
     else if 0 <=? j0 then
       v10 <- get2 values i1 j0 ;; c10 <- get2 counts i1 j0 ;; Ok (fz 0, v10, fz 0, 0, c10, 0)
     else if 0 <=? i0 then
       v01 <- get2 values i0 j1 ;; c01 <- get2 counts i0 j1 ;; Ok (fz 0, fz 0, v01, 0, 0, c01)
     else Ok (fz 0, fz 0, fz 0, 0, 0, 0)) ;;
  let value := vsub (vsub (vadd value11 value00) value10) value01 in
  let count := count11 + count00 - count10 - count01 in
  Ok (if 0 <? count then Some (match st with CMean => vdiv value (fz count) | _ => value end) else None).
Definition sum_member (nLat nLon radius : Z) (st : cstat) (d : dims) (input : vec2) (e : Z) (out : field) : res field :=
  '(values, counts) <- csat input nLat nLon ;;
  for_plane d out e (fun f i j e => r <- csat_cell values counts nLat nLon radius st i j ;; match r with Some v => f_set f i j e v | None => Ok f end).

(** the statistic of the values around a point, Neighbourhood.cpp:196-216 and 262-282; [hood] (M_Neigh) reads them in the same order *)
Definition around_stat (E : ext) (st : cstat) (quantile : val) (nLat nLon radius : Z) (input : vec2) (i j : Z) : res val :=
  let Ni := Z.min (nLat - 1) (i + radius) - Z.max 0 (i - radius) + 1 in
  let Nj := Z.min (nLon - 1) (j + radius) - Z.max 0 (j - radius) + 1 in
  _ <- assert_ (0 <? Ni) ;; _ <- assert_ (0 <? Nj) ;;
  neighbourhood <- hood input nLat nLon radius i j ;; calculate_stat E neighbourhood st quantile.
(** Neighbourhood.cpp:191-238: a row.  The length of a sliver is a size: a negative one throws in a parallel loop *)
Definition sliver_row (E : ext) (st : cstat) (quantile : val) (nLat nLon radius : Z) (input : vec2) (i : Z) : res vec :=
  if (i <? radius) || (nLat - radius <=? i) then mapM (around_stat E st quantile nLat nLon radius input i) (zrange 0 nLon)
  else
    slivers <- mapM (fun j =>
      if 2 * radius + 1 <? 0 then Abort else
      sliver <- mapM (fun ii => get2 input ii j) (zrange (i - radius) (i + radius + 1)) ;; calculate_stat E sliver st quantile) (zrange 0 nLon) ;;
    mapM (fun j =>
      curr <- mapM (fun jj => znth slivers jj) (zrange (Z.max 0 (j - radius)) (Z.min (nLon - 1) (j + radius) + 1)) ;; calculate_stat E curr st quantile) (zrange 0 nLon).
(** Neighbourhood.cpp:62-70 *)
Definition num_missing (input : vec2) : Z := zlen (filter (fun v => negb (cvalid v)) (concat input)).
Definition is_sum (st : cstat) : bool := match st with CMean | CSum => true | _ => false end.
Definition is_extreme (st : cstat) : bool := match st with CMin | CMax => true | _ => false end.
Definition is_level (st : cstat) : bool := match st with CMedian | CQuantile => true | _ => false end.
(** CalibratorNeighbourhood::calibrateField, Neighbourhood.cpp:71-289 *)
Definition neighbourhood_field (E : ext) (fast approx : bool) (st : cstat) (quantile : val) (radius : Z) (d : dims) (raw : field) : res field :=
  let nLat := d_y d in let nLon := d_x d in
  foldM (fun out e =>
    input <- plane d raw e ;;
    if fast && is_sum st then sum_member nLat nLon radius st d input e out
    else
      values <- (if (num_missing input =? 0) && (fast && is_extreme st || approx && is_level st) then mapM (sliver_row E st quantile nLat nLon radius input) (zrange 0 nLat)
                 else mapM (fun i => mapM (around_stat E st quantile nLat nLon radius input i) (zrange 0 nLon)) (zrange 0 nLat)) ;;
      for_plane d out e (fun f i j e => v <- get2 values i j ;; f_set f i j e v)) raw (zrange 0 (d_e d)).
(** the checks of the constructor, Neighbourhood.cpp:17-37, and calibrateCore, Neighbourhood.cpp:41-61; [pars]: whether the parameter file is
    location dependent, and its parameters for a time *)
Definition neighbourhood_calibrator (E : ext) (fast approx : bool) (st : cstat) (quantile : val) (radius : Z) (pars : option (bool * (Z -> vec))) (d : dims) (fields : list field) : res (list field) :=
  if radius <? 0 then Abort else
  if (match st with CQuantile => negb (cvalid quantile) || vltb quantile (fz 0) || vltb (fz 1) quantile | _ => false end) then Abort else
  each_time d (fun t =>
    f <- znth fields t ;;
    radius <- match pars with
              | None => Ok radius
              | Some (location_dependent, p) => if location_dependent : bool then Abort else v <- par_get (p t) 0 ;; to_int v
              end ;;
    neighbourhood_field E fast approx st quantile radius d f).
