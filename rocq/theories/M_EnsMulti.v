(** Model of src/api/oi_ensi_multi.cpp: observation selection shared by the ensemble analyses, and
    optimal_interpolation_ensi_multi_ebesc (static correlations, member by member). *)
From Verif Require Import Base M_Geo M_OI.

(** lRhos0: correlation and position in [loc0] of the usable observations, oi_ensi_multi.cpp:743-750 (same code at
    478-485, 1027-1034 and oi_ensi.cpp:233-240).  [obs index] is the value whose validity is tested: pobs[index][0], or
    pobs[index] in the versions with one observed value per station. *)
Definition candidates_e (obs : Z -> res val) (loc0 : list Z) (rhos : vec) : res (list (val * Z)) :=
  foldM (fun acc i =>
     index <- znth loc0 i ;;
     o <- obs index ;;
     if negb (is_valid o) then Ok acc else
     r <- znth rhos i ;;
     Ok (if vltb (fz 0) r then acc ++ [(r, i)] else acc)) [] (zrange 0 (zlen loc0)).
(** The observations used at a background point with their correlations (lLocIndices, lRhos),
    oi_ensi_multi.cpp:721-779 (same code at 457-514, 1006-1063 and oi_ensi.cpp:212-269).  [pick_obs] (M_OI) models the same
    lines as in oi.cpp. *)
Definition select (G : geo) (L : lib) (S : sfn) (pts : points) (pvec : list point) (obs : Z -> res val) (max_points : Z)
  (lat lon : val) (p1 : point) : res (list (Z * val)) :=
  radius <- sf_loc S p1 ;;
  loc0 <- get_neighbours G (s_tree pts) lat lon radius true ;;
  if zlen loc0 =? 0 then Ok [] else
  p2 <- mapM (fun k => znth pvec k) loc0 ;;
  rhos <- sf_bg S p1 p2 ;;
  c <- candidates_e obs loc0 rhos ;;
  pick_obs L max_points loc0 c.
(** the valid members, oi_ensi_multi.cpp:687-707 (with more fields at 395-417 and 929-951, with one at oi_ensi.cpp:187-201):
    those for which no field has a missing value *)
Definition all_valid (f : vec2) (e : Z) : res bool :=
  foldM (fun b r => v <- znth r e ;; Ok (b && is_valid v)) true f.
Definition members (nE : Z) (fs : list vec2) : res (list Z) :=
  foldM (fun acc e =>
     b <- foldM (fun b f => c <- all_valid f e ;; Ok (b && c)) true fs ;;
     Ok (if b then acc ++ [e] else acc)) [] (zrange 0 nE).
(** one row of lInnov, oi_ensi_multi.cpp:790, 803-807: the matrix has nValidEns columns, but the column written is the number of
    the member among all members.  Armadillo checks the index and throws (std::logic_error, in newer versions
    std::out_of_range). *)
Definition innov_row (nV : Z) (valid : list Z) (orow brow : vec) : res vec :=
  foldM (fun acc ei =>
     o <- znth orow ei ;;
     b <- znth brow ei ;;
     if ei <? nV then zset acc ei (vsub o b) else Throw LogicError) (init1 nV (fz 0)) valid.
(** anti-extrapolation filter, oi_ensi_multi.cpp:830-848 (same at 587-605) *)
Definition limit0 (inc maxInc minInc : val) : val :=
  if vltb (fz 0) maxInc && vltb maxInc inc then maxInc
  else if vltb maxInc (fz 0) && vltb (fz 0) inc then fz 0
  else if vltb minInc (fz 0) && vltb inc minInc then minInc
  else if vltb (fz 0) minInc && vltb inc (fz 0) then fz 0
  else inc.
(** the updated row, oi_ensi_multi.cpp:819-856 (ebesc) and 576-613 (ebe): [M] is the matrix inverted, [g] the correlations of the
    background point with the observations *)
Definition update_row (L : lib) (M : vec2) (g : vec) (innov : vec2) (valid : list Z) (ratio : val) (extrapolate : bool) (row : vec) : res vec :=
  let lS := zlen g in
  let nV := zlen valid in
  N <- l_inv L M ;;
  lK <- row_mul lS g N ;;
  dx <- mapM (fun e =>
          d <- mapM (fun r => znth r e) innov ;;
          x <- vdot lS lK d ;;
          let inc := vmul ratio x in
          Ok (if extrapolate then inc else limit0 inc (amax d) (amin d))) (zrange 0 nV) ;;
  foldM (fun out e =>
     ei <- znth valid e ;;
     b <- znth row ei ;;
     x <- znth dx e ;;
     zset out ei (vadd b x)) row (zrange 0 nV).
(** one background point of ebesc, oi_ensi_multi.cpp:715-857 *)
Definition ebesc_cell (G : geo) (L : lib) (S : sfn) (bpts : points) (bratios : vec) (background : vec2) (pts : points)
  (pvec : list point) (pobs : vec2) (pratios : vec) (pbg : vec2) (max_points : Z) (extrapolate : bool) (valid : list Z) (y : Z) : res vec :=
  row <- znth background y ;;
  ratio <- znth bratios y ;;
  lat <- znth (s_lats bpts) y ;;
  lon <- znth (s_lons bpts) y ;;
  p1 <- points_get bpts y ;;
  sel <- select G L S pts pvec (fun k => get2 pobs k 0) max_points lat lon p1 ;;
  if zlen sel =? 0 then Ok row else
  let U := map fst sel in
  let g := map snd sel in
  innov <- mapM (fun k => orow <- znth pobs k ;; brow <- znth pbg k ;; innov_row (zlen valid) valid orow brow) U ;;
  M <- system S pvec pratios U ;;
  update_row L M g innov valid ratio extrapolate row.
(** optimal_interpolation_ensi_multi_ebesc(Points), oi_ensi_multi.cpp:630-859 *)
Definition ebesc (G : geo) (L : lib) (S : sfn) (bpts : points) (bratios : vec) (background : vec2) (pts : points)
  (pobs : vec2) (pratios : vec) (pbg : vec2) (max_points : Z) (extrapolate : bool) : res vec2 :=
  if max_points <? 0 then Throw InvalidArgument
  else if negb (match points_type bpts, points_type pts with
                | Geodetic, Geodetic => true | Cartesian, Cartesian => true | _, _ => false end) then Throw InvalidArgument
  else if negb (zlen background =? points_size bpts) then Throw InvalidArgument
  else if negb (zlen bratios =? points_size bpts) then Throw InvalidArgument
  else if negb (zlen pobs =? points_size pts) then Throw InvalidArgument
  else if negb (zlen pratios =? points_size pts) then Throw InvalidArgument
  else if negb (zlen pbg =? points_size pts) then Throw InvalidArgument
  else
    let nS := points_size pts in
    if nS =? 0 then Ok background else
    r0 <- znth background 0 ;;
    pvec <- mapM (points_get pts) (zrange 0 nS) ;;
    valid <- members (zlen r0) [background; pbg] ;;
    if zlen valid =? 0 then Ok background else
    mapM (ebesc_cell G L S bpts bratios background pts pvec pobs pratios pbg max_points extrapolate valid) (zrange 0 (zlen background)).

(** the loops copying a 3D field to a 2D one and back, e.g. oi_ensi_multi.cpp:200-209 and 213-221 *)
Definition flat3 (nY nX nE : Z) (f : vec3) : res vec2 :=
  r <- tab2 nY nX (fun y x => mapM (fun e => get3 f y x e) (zrange 0 nE)) ;; Ok (concat r).
Definition unflat3 (nY nX nE : Z) (l : vec2) : res vec3 :=
  tab2 nY nX (fun y x => mapM (fun e => get2 l (y * nX + x) e) (zrange 0 nE)).
(** size check of a 2D field against (n, m): both the comparison and the error message read the first row unless the first
    comparison decides; the message reads it in any case, e.g. oi_ensi_multi.cpp:181-185 *)
Definition sized (n m : Z) (f : vec2) : res unit :=
  r0 <- znth f 0 ;;
  if (zlen f =? n) && (zlen r0 =? m) then Ok tt else Throw InvalidArgument.
(** optimal_interpolation_ensi_multi_ebesc(Grid), oi_ensi_multi.cpp:137-223 *)
Definition ebesc_grid (G : geo) (L : lib) (S : sfn) (bgrid : grid) (bratios : vec2) (background : vec3) (pts : points)
  (pobs : vec2) (pratios : vec) (pbg : vec2) (max_points : Z) (extrapolate : bool) : res vec3 :=
  if max_points <? 0 then Throw InvalidArgument
  else
    let nS := points_size pts in
    if nS =? 0 then Ok background else
    '(nY, nX) <- grid_size bgrid ;;
    if (nY =? 0) || (nX =? 0) then Throw InvalidArgument
    else if negb (match grid_type bgrid, points_type pts with
                  | Geodetic, Geodetic => true | Cartesian, Cartesian => true | _, _ => false end) then Throw InvalidArgument
    else
      r0 <- znth background 0 ;;
      e0 <- znth r0 0 ;;
      let nE := zlen e0 in
      if negb ((zlen background =? nY) && (zlen r0 =? nX)) then Throw InvalidArgument else
      _ <- sized nY nX bratios ;;
      _ <- sized nS nE pbg ;;
      _ <- sized nS nE pobs ;;
      if negb (zlen pratios =? nS) then Throw InvalidArgument else
      bpts <- to_points bgrid ;;
      br1 <- flat nY nX bratios ;;
      b1 <- flat3 nY nX nE background ;;
      o1 <- ebesc G L S bpts br1 b1 pts pobs pratios pbg max_points extrapolate ;;
      unflat3 nY nX nE o1.
