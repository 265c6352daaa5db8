(** Model of the client's optimal interpolation, src/client/Calibrator/Oi.cpp, with transform=none and without biasVariable, deltaVariable and numVariable; the
    two transforms and calcDelta are modelled by themselves.  As in M_CCal.  Arguments of the model: [gc] and [ga], the distance of two points and its approximation
    (Util::getDistance, Util.cpp:121-137); [ex], exp; [rf], the value sqrt(-2 log(minRho)); [sortp], std::sort of pairs by the first; [inv], arma::inv; [nn],
    the nearest neighbour of the search tree (M_CTree); [ens], what is done at a point in ensemble mode (Oi.cpp:700-1009, not modelled); [locs] and [pars], the
    locations of the parameter file and its parameters at a time.  Simplifications: the indices of the nearest neighbours are kept as integers (floats in the code);
    the lists of stations are made for each point when it is handled; points are handled one after the other; the product of radiuses does not overflow;
    abs of the difference of elevations is that of floats. *)
From Verif Require Import Base M_COpt M_CUtil M_CCal M_CTree M_CKrig.
Local Open Scope Z_scope.

(** the options read by the constructor, Oi.cpp:10-105 *)
Record oi_options := { oi_d : val; oi_h : val; oi_w : val; oi_wmin : val; oi_minrho : val; oi_epsilon : val; oi_gradient : val; oi_maxelev : val; oi_maxbytes : val;
  oi_soar : bool; oi_land : bool; oi_cross : bool; oi_useens : bool; oi_savediff : bool; oi_max : Z; oi_minens : Z }.
(** gLocations, gObs, gCi, gYi, gXi and gLafs, Oi.cpp:194-200 *)
Record station := { st_loc : location; st_obs : val; st_ci : val; st_y : Z; st_x : Z; st_laf : val }.
(** calcRho, Oi.cpp:1123-1148 *)
Definition calc_rho (ex : val -> val) (o : oi_options) (hdist vdist ldist : val) : val :=
  let half := fq (-1 # 2) in
  let h := vdiv hdist (oi_d o) in
  let rho := if oi_soar o then vmul (vadd (fz 1) h) (ex (vneg h)) else ex (vmul (vmul half h) h) in
  let rho := if cvalid (oi_h o) then (if cvalid vdist then let v := vdiv vdist (oi_h o) in vmul rho (ex (vmul (vmul half v) v)) else fz 0) else rho in
  let rho := if cvalid (oi_wmin o) then vmul rho (vsub (fz 1) (vmul (vsub (fz 1) (oi_wmin o)) (vabs ldist))) else rho in
  if cvalid (oi_w o) then vmul rho (ex (vdiv (vmul (vmul half ldist) ldist) (vmul (oi_w o) (oi_w o)))) else rho.
(** Oi.cpp:243-256 *)
Definition oi_station (nn : location -> Z * Z) (lafs : list vec) (l : location) (p : vec) : res station :=
  match p with
  | [] => Abort
  | obs :: rest =>
      let '(Y, X) := nn l in laf <- get2 lafs Y X ;;
      Ok {| st_loc := l; st_obs := obs; st_ci := match rest with [c] => c | _ => fz 1 end; st_y := Y; st_x := X; st_laf := laf |}
  end.
(** Oi.cpp:168-180 *)
Definition oi_grid_size (gc : val -> val -> val -> val -> val) (lats lons : list vec) : res val :=
  if 1 <? zlen lats then
    r <- znth lats 0 ;;
    if 1 <? zlen r then la <- get2 lats 0 0 ;; lo <- get2 lons 0 0 ;; la' <- get2 lats 1 0 ;; lo' <- get2 lons 1 0 ;; get_distance gc la lo la' lo' else Ok CMV
  else Ok CMV.
(** Oi.cpp:206-229 *)
Definition oi_radius (rf : val) (o : oi_options) (gridSize : val) (gS : Z) : res Z :=
  if cvalid gridSize then
    r <- to_int (vdiv (vmul rf (oi_d o)) gridSize) ;;
    if cvalid (oi_maxbytes o) && vltb (oi_maxbytes o) (vmul (fz (r * r * 16)) (fz gS)) then Abort else Ok r
  else Ok 0.
(** Oi.cpp:258 and 471 *)
Definition oi_inside (nY nX : Z) (s : station) : bool := (0 <? st_x s) && (st_x s <? nX - 1) && (0 <? st_y s) && (st_y s <? nY - 1).
(** Oi.cpp:258-270 *)
Definition oi_accepts (o : oi_options) (regular : bool) (nY nX : Z) (elevs : list vec) (s : station) : res bool :=
  elev <- get2 elevs (st_y s) (st_x s) ;;
  Ok ((negb regular || oi_inside nY nX s) && cvalid (st_obs s) &&
      (negb (cvalid (oi_maxelev o)) || (cvalid (l_elev (st_loc s)) && vltb (vabs (vsub (l_elev (st_loc s)) elev)) (oi_maxelev o))) &&
      negb (cvalid (st_laf s) && oi_land o && veqb (st_laf s) (fz 0))).
(** Oi.cpp:271-287: whether the station is put into the list of a point *)
Definition oi_reaches (ga : val -> val -> val -> val -> val) (rf : val) (o : oi_options) (regular : bool) (r nY nX : Z) (s : station) (lat lon : val) (y x : Z) : res bool :=
  if regular then Ok ((Z.max 0 (st_y s - r) <=? y) && (y <? Z.min nY (st_y s + r)) && (Z.max 0 (st_x s - r) <=? x) && (x <? Z.min nX (st_x s + r)))
  else dist <- get_distance ga (l_lat (st_loc s)) (l_lon (st_loc s)) lat lon ;; Ok (vltb dist (vmul rf (oi_d o))).
(** Oi.cpp:461-463, 578-580 and 589-591: isValid is called with the truth value of a conjunction, which is a valid number *)
Definition elev_difference (a b : val) : val := vsub a b.
(** Oi.cpp:464-466, 581-583 and 592-594: between stations the validity of the land fraction of the point is tested *)
Definition laf_difference (a b c : val) : val := if cvalid a && cvalid b then vsub a c else fz 0.
(** the correlation of a station with a point, Oi.cpp:460-467 and 577-584 *)
Definition oi_rho (ga : val -> val -> val -> val -> val) (ex : val -> val) (o : oi_options) (s : station) (lat lon elev laf : val) : res val :=
  hdist <- get_distance ga (l_lat (st_loc s)) (l_lon (st_loc s)) lat lon ;;
  Ok (calc_rho ex o hdist (elev_difference (l_elev (st_loc s)) elev) (laf_difference (st_laf s) laf laf)).
(** the correlation of two stations, Oi.cpp:588-596 *)
Definition oi_rho2 (ga : val -> val -> val -> val -> val) (ex : val -> val) (o : oi_options) (s s' : station) (laf : val) : res val :=
  hdist <- get_distance ga (l_lat (st_loc s)) (l_lon (st_loc s)) (l_lat (st_loc s')) (l_lon (st_loc s')) ;;
  Ok (calc_rho ex o hdist (elev_difference (l_elev (st_loc s)) (l_elev (st_loc s'))) (laf_difference (st_laf s) laf (st_laf s'))).
(** Oi.cpp:453-476: the stations of a point, with their correlations *)
Definition oi_near (ga : val -> val -> val -> val -> val) (ex : val -> val) (rf : val) (o : oi_options) (regular : bool) (r nY nX : Z) (elevs : list vec) (ss : list station) (lat lon elev laf : val) (y x : Z) : res (list (val * Z)) :=
  foldM (fun l i =>
    s <- znth ss i ;; ok <- oi_accepts o regular nY nX elevs s ;;
    reach <- (if ok : bool then oi_reaches ga rf o regular r nY nX s lat lon y x else Ok false) ;;
    if reach : bool then
      rho <- oi_rho ga ex o s lat lon elev laf ;;
      Ok (if (negb regular || oi_inside nY nX s) && vltb (oi_minrho o) rho then l ++ [(rho, i)] else l)
    else Ok l) [] (zrange 0 (zlen ss)).
(** Oi.cpp:478-499: without the first of the greatest correlations *)
Definition oi_greatest (l : list (val * Z)) : option nat :=
  snd (fst (fold_left (fun st p => let '(maxRho, best, i) := st in if vltb maxRho (fst p) then (fst p, Some i, S i) else (maxRho, best, S i)) l (fz 0, None, O))).
Definition oi_without (l : list (val * Z)) : list (val * Z) :=
  match oi_greatest l with None => l | Some k => firstn k l ++ skipn (S k) l end.
(** Oi.cpp:500-520 *)
Definition oi_chosen (sortp : list (val * Z) -> list (val * Z)) (o : oi_options) (l : list (val * Z)) : list Z :=
  let l := if oi_cross o then oi_without l else l in
  if (0 <=? oi_max o) && (oi_max o <? zlen l) then map snd (firstn (Z.to_nat (oi_max o)) (rev (sortp l))) else map snd l.
(** Oi.cpp:379-412: the background at a station, as deviations from the mean and mean *)
Definition oi_background (o : oi_options) (elevs : list vec) (nEns : Z) (f : field) (s : station) : res (vec * val) :=
  corr <- (if cvalid (oi_gradient o) && negb (veqb (oi_gradient o) (fz 0)) then
      nnElev <- get2 elevs (st_y s) (st_x s) ;; if cvalid nnElev && cvalid (l_elev (st_loc s)) then Ok (vmul (oi_gradient o) (vsub (l_elev (st_loc s)) nnElev)) else Abort
    else Ok (fz 0)) ;;
  '(ys, total, count) <- foldM (fun st e => let '(ys, total, count) := st in
      value <- f_get f (st_y s) (st_x s) e ;;
      Ok (if cvalid value then (ys ++ [vadd value corr], vadd total (vadd value corr), count + 1) else (ys ++ [fz 0], total, count))) ([], fz 0, 0) (zrange 0 nEns) ;;
  let mean := if 0 <? count then vdiv total (fz count) else CMV in
  Ok (map (fun v => if cvalid v && cvalid mean then vsub v mean else v) ys, mean).
(** Oi.cpp:419-435 *)
Definition oi_members (d : dims) (f : field) : res (list Z) :=
  foldM (fun l e =>
    n <- foldM (fun n c => let '(y, x) := c in v <- f_get f y x e ;; Ok (if cvalid v then n else n + 1)) 0 (pairs2 (d_y d) (d_x d)) ;;
    Ok (if n =? 0 then l ++ [e] else l)) [] (zrange 0 (d_e d)).
(** the product of a row and a column, Oi.cpp:607-608 and 616 *)
Definition vdot (a b : vec) : res val := foldM (fun t i => x <- znth a i ;; y <- znth b i ;; Ok (vadd t (vmul x y))) (fz 0) (zrange 0 (zlen a)).
(** Oi.cpp:538-561, 567-619: single-member mode at a point with stations [chosen] *)
Definition oi_single (ga : val -> val -> val -> val -> val) (ex : val -> val) (inv : list vec -> list vec) (o : oi_options) (ss : list station) (back : list (vec * val)) (lat lon elev laf : val)
    (chosen : list Z) (members : list Z) (f out : field) (y x : Z) : res field :=
  ls <- mapM (znth ss) chosen ;; lb <- mapM (znth back) chosen ;;
  G <- mapM (fun s => oi_rho ga ex o s lat lon elev laf) ls ;;
  A <- mapM (fun i => s <- znth ls i ;;
      mapM (fun j => s' <- znth ls j ;; p <- oi_rho2 ga ex o s s' laf ;; Ok (vadd p (vmul (vmul (oi_epsilon o) (oi_epsilon o)) (if i =? j then st_ci s else fz 0)))) (zrange 0 (zlen ls))) (zrange 0 (zlen ls)) ;;
  let B := inv A in
  gain <- mapM (fun j => col <- mapM (fun i => get2 B i j) (zrange 0 (zlen ls)) ;; vdot G col) (zrange 0 (zlen ls)) ;;
  foldM (fun out e =>
    v <- f_get f y x e ;;
    departure <- mapM (fun i => s <- znth ls i ;; b <- znth lb i ;; ye <- znth (fst b) e ;; Ok (vsub (st_obs s) (vadd ye (snd b)))) (zrange 0 (zlen ls)) ;;
    dx <- vdot gain departure ;;
    f_set out y x e (vadd v dx)) out members.
(** CalibratorOi::calibrateCore, Oi.cpp:123-1091 *)
Definition oi_calibrator (gc ga : val -> val -> val -> val -> val) (ex : val -> val) (rf : val) (sortp : list (val * Z) -> list (val * Z)) (inv : list vec -> list vec) (nn : location -> Z * Z)
    (ens : Z -> list Z -> list Z -> field -> field -> Z -> Z -> res field) (o : oi_options) (nPar : Z) (locs : list location) (pars : Z -> location -> vec) (lats lons elevs lafs : list vec) (d : dims) (fields : list field) : res (list field) :=
  hasValid <- foldM (fun b c => let '(i, j) := c in la <- get2 lats i j ;; lo <- get2 lons i j ;; el <- get2 elevs i j ;; Ok (b || cvalid la && cvalid lo && cvalid el)%bool) false (pairs2 (d_y d) (d_x d)) ;;
  if negb hasValid then Ok fields else
  if 3 <? nPar then Abort else
  gridSize <- oi_grid_size gc lats lons ;;
  r <- oi_radius rf o gridSize (zlen locs) ;;
  let regular := cvalid gridSize in
  ss <- mapM (fun l => oi_station nn lafs l (pars 0 l)) locs ;;
  each_time d (fun t =>
    f <- znth fields t ;;
    out <- empty_field d ;;
    back <- mapM (oi_background o elevs (d_e d) f) ss ;;
    members <- oi_members d f ;;
    let single := negb (oi_useens o) || (zlen members <? oi_minens o) in
    foldM (fun out c => let '(y, x) := c in
      lat <- get2 lats y x ;; lon <- get2 lons y x ;; elev <- get2 elevs y x ;; laf <- get2 lafs y x ;;
      near <- oi_near ga ex rf o regular r (d_y d) (d_x d) elevs ss lat lon elev laf y x ;;
      let chosen := oi_chosen sortp o near in
      if zlen chosen =? 0 then
        foldM (fun out e => v <- f_get f y x e ;; f_set out y x e (if oi_savediff o then CMV else v)) out (zrange 0 (d_e d))
      else if single then oi_single ga ex inv o ss back lat lon elev laf chosen members f out y x
      else ens t chosen members f out y x) out (pairs2 (d_y d) (d_x d))).
(** calcDelta, Oi.cpp:1093-1121 *)
Definition oi_delta (c sigma epsilon newDeltaVar oldDelta : val) (gY : list vec) : res val :=
  y0 <- znth gY 0 ;;
  '(trace, numValid) <- foldM (fun st row => let '(trace, numValid) := st in
      '(value, count) <- foldM (fun st e => let '(value, count) := st in v <- znth row e ;; Ok (if cvalid v then (vadd value (vmul v v), count + 1) else (value, count))) (fz 0, 0) (zrange 0 (zlen y0)) ;;
      Ok (if 1 <? count then (vadd trace (vdiv value (fz (count - 1))), vadd numValid (fz 1)) else (trace, numValid))) (fz 0, fz 0) gY ;;
  let numerator := vdiv (vdiv (vmul sigma sigma) epsilon) epsilon in
  let evidence := vdiv numerator (vmul (vdiv (fz 1) numValid) trace) in
  let weightOld := vsub c (fz 1) in
  Ok (vdiv (vadd (vmul oldDelta newDeltaVar) (vmul evidence weightOld)) (vadd weightOld newDeltaVar)).
