(** Model of the client's kriging calibrator, src/client/Calibrator/Kriging.cpp.  As in M_CCal.  Arguments of the model: [gc], the distance of two points
    (Util::getDistance, Util.cpp:121-137); [ex] and [pw], exp and pow; [inv], Util::inverse (Util.cpp:457-521, the LU factorisation of Boost); [locs], the
    locations of the parameter file; [pars], its parameters at a time and location; the options as a record.  Simplifications: the auxiliary variable is not
    the calibrated one; grid points are handled one after the other, though the loop over the rows is parallel and, with crossValidate, all threads
    assign the same variable [inverse] (see DESIGN.md). *)
From Verif Require Import Base M_Stat M_COpt M_CUtil M_CCal M_CTree.
Local Open Scope Z_scope.

Inductive kop := KAdd | KSubtract | KMultiply | KDivide.
Record kriging := { k_efold : val; k_radius : val; k_elev : val; k_cressman : bool; k_op : kop; k_cross : bool }.
Definition place_valid (l : location) : bool := cvalid (l_lat l) && cvalid (l_lon l) && cvalid (l_elev l).
(** a*a - b*b over a*a + b*b *)
Definition cressman (a b : val) : val := vdiv (vsub (vmul a a) (vmul b b)) (vadd (vmul a a) (vmul b b)).
(** calcCovar, Kriging.cpp:393-428 *)
Definition calc_covar (gc : val -> val -> val -> val -> val) (ex : val -> val) (k : kriging) (loc1 loc2 : location) : res val :=
  if place_valid loc1 && place_valid loc2 then
    horizDist <- get_distance gc (l_lat loc1) (l_lon loc1) (l_lat loc2) (l_lon loc2) ;;
    let vertDist := vabs (vsub (l_elev loc1) (l_elev loc2)) in
    if vleb (k_radius k) horizDist || (cvalid (k_elev k) && vleb (k_elev k) vertDist) then Ok (fz 0) else
    if k_cressman k then
      if vltb (k_efold k) horizDist || (cvalid (k_elev k) && vltb (k_elev k) vertDist) then Ok (fz 0) else
      Ok (vmul (cressman (k_efold k) horizDist) (if cvalid (k_elev k) then cressman (k_elev k) vertDist else fz 1))
    else
      let barnes d l := ex (vdiv (vmul (vneg d) d) (vmul (vmul (fz 2) l) l)) in
      Ok (vmul (barnes horizDist (k_efold k)) (if cvalid (k_elev k) then barnes vertDist (k_elev k) else fz 1))
  else Ok CMV.
(** Kriging.cpp:177-202 *)
Definition krig_factor : val := fq (828 # 1000).
Definition krig_matrix (covar : location -> location -> res val) (locs : list location) : res (list vec) :=
  let N := zlen locs in
  foldM (fun m ii =>
    iloc <- znth locs ii ;; m <- set2 m ii ii (fz 1) ;;
    foldM (fun m jj => jloc <- znth locs jj ;; c <- covar iloc jloc ;; let R := vmul c krig_factor in m <- set2 m ii jj R ;; set2 m jj ii R) m (zrange (ii + 1) N))
    (init1 N (init1 N (fz 0))) (zrange 0 N).
(** Kriging.cpp:228-246: the stations with positive covariance, with their numbers *)
Definition krig_near (covar : location -> location -> res val) (locs : list location) (p : location) : res (list (Z * val)) :=
  foldM (fun l ii => obsPoint <- znth locs ii ;; c <- covar obsPoint p ;; Ok (if vltb (fz 0) c then l ++ [(ii, c)] else l)) [] (zrange 0 (zlen locs)).
(** Kriging.cpp:258-274 *)
Definition krig_bias (op : kop) (p : vec) : val :=
  match p with
  | [] => fz 0
  | currBias :: _ => if cvalid currBias then match op with KMultiply | KDivide => vsub currBias (fz 1) | _ => currBias end else currBias
  end.
(** Kriging.cpp:292-299: the index, in the list of near stations, of the first with the greatest covariance *)
Definition krig_greatest (S : list (Z * val)) : Z :=
  snd (fst (fold_left (fun st s => let '(maxCovar, Imax, ii) := st in if negb (Imax =? -999) && negb (vltb maxCovar (snd s)) then (maxCovar, Imax, ii + 1) else (snd s, ii, ii + 1)) S (CMV, -999, 0))).
(** Kriging.cpp:300-308: row and column of the matrix set to 0; the numbers are those in the list of near stations *)
Definition krig_without (m : list vec) (k currN : Z) : res (list vec) :=
  m <- foldM (fun m ii => m <- set2 m k ii (fz 0) ;; set2 m ii k (fz 0)) m (zrange 0 currN) ;; set2 m k k (fz 1).
(** Kriging.cpp:311-320 *)
Definition krig_weights (inverse : list vec) (N : Z) (S : list (Z * val)) : res vec :=
  mapM (fun ii => foldM (fun w s => v <- get2 inverse ii (fst s) ;; Ok (vadd w (vmul v (snd s)))) (fz 0) S) (zrange 0 N).
(** Kriging.cpp:326-335 *)
Fixpoint krig_final (bias weights : vec) (finalBias : val) : res val :=
  match bias with
  | [] => Ok finalBias
  | b :: bias =>
      if negb (cvalid b) then Ok CMV else
      match weights with w :: weights => krig_final bias weights (vadd finalBias (vmul b w)) | [] => UB end
  end.
(** Kriging.cpp:286-335: the correction at a point with near stations [S] *)
Definition krig_correction (inv : list vec -> list vec) (cross : bool) (matrix inverse : list vec) (bias : vec) (S : list (Z * val)) : res val :=
  let N := zlen bias in
  if cross then
    let k := krig_greatest S in
    s <- znth S k ;; S <- zset S k (fst s, fz 0) ;;
    m <- krig_without matrix k (zlen S) ;;
    weights <- krig_weights (inv m) N S ;; weights <- zset weights k (fz 0) ;;
    krig_final bias weights (fz 0)
  else weights <- krig_weights inverse N S ;; krig_final bias weights (fz 0).
(** Kriging.cpp:355-383 *)
Definition krig_apply (op : kop) (v b : val) : val :=
  match op with KAdd => vadd v b | KSubtract => vsub v b | KMultiply => vmul v b | KDivide => vdiv v b end.
(** Kriging.cpp:280-386: one grid point; [aux] gives the weight of a member *)
Definition krig_point (pw : val -> val -> val) (op : kop) (aux : option (Z -> res val)) (nEns : Z) (finalBias : val) (f : field) (i j : Z) : res field :=
  if cvalid finalBias then
    let finalBias := match op with KMultiply => vadd finalBias (fz 1) | KDivide => vsub finalBias (fz 1) | _ => finalBias end in
    '(f, _) <- foldM (fun st e => let '(f, finalBias) := st in
      rawValue <- f_get f i j e ;;
      finalBias <- (match aux with None => Ok finalBias | Some w => weight <- w e ;; Ok (match op with KAdd | KSubtract => vmul finalBias weight | _ => pw finalBias weight end) end) ;;
      f <- f_set f i j e (krig_apply op rawValue finalBias) ;; Ok (f, finalBias)) (f, finalBias) (zrange 0 nEns) ;;
    Ok f
  else Ok f.
(** Kriging.cpp:133-156: the weight of a member at a time *)
Definition aux_weight (auxFields : list field) (lower upper : val) (window nTime t i j e : Z) : res val :=
  '(total, numValid) <- foldM (fun st tt => let '(total, numValid) := st in
      aux <- get4 auxFields tt i j e ;;
      Ok (if cvalid aux then (if vleb lower aux && vleb aux upper then vadd total (fz 1) else total, numValid + 1) else (total, numValid)))
    (fz 0, 0) (zrange (Z.max (t - window) 0) (Z.min (nTime - 1) (t + window) + 1)) ;;
  Ok (if numValid =? 0 then fz 1 else vadd (fz 0) (vdiv total (fz numValid))).
Definition pairs2 (ny nx : Z) : list (Z * Z) := flat_map (fun i => map (fun j => (i, j)) (zrange 0 nx)) (zrange 0 ny).
(** CalibratorKriging::calibrateCore, Kriging.cpp:87-391; [aux] gives the auxiliary fields with the range and the window *)
Definition kriging_calibrator (gc : val -> val -> val -> val -> val) (ex : val -> val) (pw : val -> val -> val) (inv : list vec -> list vec) (k : kriging)
    (aux : option (list field * val * val * Z)) (dep : bool) (locs : list location) (pars : Z -> location -> vec) (lats lons elevs : list vec) (d : dims) (fields : list field) : res (list field) :=
  hasValid <- foldM (fun b c => let '(i, j) := c in la <- get2 lats i j ;; lo <- get2 lons i j ;; el <- get2 elevs i j ;; Ok (b || cvalid la && cvalid lo && cvalid el)%bool) false (pairs2 (d_y d) (d_x d)) ;;
  if negb hasValid then Ok fields else
  if negb dep then Abort else
  matrix <- krig_matrix (calc_covar gc ex k) locs ;;
  let inverse := if zlen locs =? 0 then [] else inv matrix in
  table <- mapM (fun i => mapM (fun j => la <- get2 lats i j ;; lo <- get2 lons i j ;; el <- get2 elevs i j ;; krig_near (calc_covar gc ex k) locs {| l_lat := la; l_lon := lo; l_elev := el |}) (zrange 0 (d_x d))) (zrange 0 (d_y d)) ;;
  each_time d (fun t =>
    f <- znth fields t ;;
    let bias := map (fun l => krig_bias (k_op k) (pars t l)) locs in
    foldM (fun f c => let '(i, j) := c in
      S <- get2 table i j ;;
      if zlen S =? 0 then Ok f else
      finalBias <- krig_correction inv (k_cross k) matrix inverse bias S ;;
      krig_point pw (k_op k) (match aux with None => None | Some (fs, lower, upper, w) => Some (aux_weight fs lower upper w (d_t d) t i j) end) (d_e d) finalBias f i j) f (pairs2 (d_y d) (d_x d))).
(** CalibratorKriging::train, Kriging.cpp:430-478, with the mean of each ensemble (Util::calculateStat) *)
Definition kriging_train (E : ext) (op : kop) (data : list (val * vec)) : res vec :=
  '(totalObs, totalFcst, counter) <- foldM (fun st x => let '(totalObs, totalFcst, counter) := st in
      mean <- calculate_stat E (snd x) CMean (fz 0) ;;
      Ok (if cvalid (fst x) && cvalid mean then (vadd totalObs (fst x), vadd totalFcst mean, counter + 1) else (totalObs, totalFcst, counter))) (fz 0, fz 0, 0) data ;;
  Ok [if counter <=? 0 then fz 0 else match op with
      | KAdd => vdiv (vsub totalObs totalFcst) (fz counter) | KSubtract => vdiv (vsub totalFcst totalObs) (fz counter)
      | KMultiply => vdiv totalObs totalFcst | KDivide => vdiv totalFcst totalObs end].
