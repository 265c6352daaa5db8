(** Model of downscaling.cpp, downscale_probability.cpp, mask_threshold_downscale_consensus.cpp, simple_gradient.cpp,
    gradient.cpp and calc_gradient.cpp. *)
From Verif Require Import Base M_Stat M_Neigh M_Curve M_Geo M_Near M_Bilin.

(** enum Downscaler, gridpp.h:132-135; [OtherDownscaler] stands for any other integer value *)
Inductive downscaler := Nearest | Bilinear | OtherDownscaler.
(** downscaling(Grid, Grid, vec2), downscaling.cpp:21-33 *)
Definition downscaling_gg2 (E : ext) (G : geo) (ig og : grid) (v : vec2) (d : downscaler) : res vec2 :=
  c <- compat_grid2 ig v ;; if negb c then Throw InvalidArgument else
  match d with Nearest => nearest_gg2 G ig og v | Bilinear => bilinear_gg2 E G ig og v | OtherDownscaler => Throw InvalidArgument end.
(** downscaling(Grid, Grid, vec3), downscaling.cpp:49-61 *)
Definition downscaling_gg3 (E : ext) (G : geo) (ig og : grid) (v : vec3) (d : downscaler) : res vec3 :=
  c <- compat_grid3 ig v ;; if negb c then Throw InvalidArgument else
  match d with Nearest => nearest_gg3 G ig og v | Bilinear => bilinear_gg3 E G ig og v | OtherDownscaler => Throw InvalidArgument end.
(** downscaling(Grid, Points, vec2), downscaling.cpp:7-19 *)
Definition downscaling_gp2 (E : ext) (G : geo) (ig : grid) (op : points) (v : vec2) (d : downscaler) : res vec :=
  c <- compat_grid2 ig v ;; if negb c then Throw InvalidArgument else
  match d with Nearest => nearest_gp2 G ig op v | Bilinear => bilinear_gp2 E G ig op v | OtherDownscaler => Throw InvalidArgument end.
(** downscaling(Grid, Points, vec3), downscaling.cpp:35-47 *)
Definition downscaling_gp3 (E : ext) (G : geo) (ig : grid) (op : points) (v : vec3) (d : downscaler) : res vec2 :=
  c <- compat_grid3 ig v ;; if negb c then Throw InvalidArgument else
  match d with Nearest => nearest_gp3 G ig op v | Bilinear => bilinear_gp3 E G ig op v | OtherDownscaler => Throw InvalidArgument end.

(** ** ensembles *)
(** enum ComparisonOperator, gridpp.h:138-143 *)
Inductive cmpop := Lt | Leq | Gt | Geq.
Definition compare (op : cmpop) (a b : val) : bool :=
  match op with Lt => vltb a b | Leq => vleb a b | Gt => vltb b a | Geq => vleb b a end.
(** one output cell, downscale_probability.cpp:23-60 *)
Definition prob_cell (G : geo) (ig : grid) (iv : vec3) (thr : vec2) (op : cmpop) (nEns i j : Z) (lat lon : val) : res val :=
  '(ki, kj) <- lookup_grid G ig lat lon ;;
  '(count, total) <- foldM (fun '(count, total) k =>
      v <- get3 iv ki kj k ;;
      if is_valid v then t <- get2 thr i j ;; Ok (count + 1, if compare op v t then total + 1 else total)
      else Ok (count, total)) (0, 0) (zrange 0 nEns) ;;
  Ok (if count =? 0 then MV else vdiv (fz total) (fz count)).
(** downscale_probability.cpp:7-64 *)
Definition downscale_probability (G : geo) (ig og : grid) (iv : vec3) (thr : vec2) (op : cmpop) : res vec2 :=
  '(nLat, nLon) <- out_shape og ;;
  e0 <- get2 iv 0 0 ;;
  omp (for2 nLat nLon (init2 nLat nLon (fz 0)) (fun i j =>
    '(lat, lon) <- out_loc og i j ;; prob_cell G ig iv thr op (zlen e0) i j lat lon)).
(** one member, mask_threshold_downscale_consensus.cpp:39-72 *)
Definition masked_value (ivt ivf tv : vec3) (thr : vec2) (op : cmpop) (ki kj i j k : Z) : res val :=
  v <- get3 tv ki kj k ;;
  if is_valid v then t <- get2 thr i j ;; if compare op v t then get3 ivt ki kj k else get3 ivf ki kj k
  else Ok MV.
(** mask_threshold_downscale_consensus.cpp:19-84 *)
Definition mask_threshold_downscale (E : ext) (G : geo) (ig og : grid) (ivt ivf tv : vec3) (thr : vec2) (op : cmpop)
    (st : statistic) (quantile : val) : res vec2 :=
  '(nLat, nLon) <- out_shape og ;;
  e0 <- get2 ivt 0 0 ;;
  omp (for2 nLat nLon (init2 nLat nLon (fz 0)) (fun i j =>
    '(lat, lon) <- out_loc og i j ;;
    '(ki, kj) <- lookup_grid G ig lat lon ;;
    masked <- for1 (zlen e0) (init1 (zlen e0) MV) (masked_value ivt ivf tv thr op ki kj i j) ;;
    if stat_eqb st Quantile then calc_quantile masked quantile else calc_statistic E masked st)).
(** mask_threshold_downscale_consensus.cpp:11-13 and 14-16 *)
Definition mask_threshold_downscale_consensus E G ig og ivt ivf tv thr op st := mask_threshold_downscale E G ig og ivt ivf tv thr op st (fz 0).
Definition mask_threshold_downscale_quantile E G ig og ivt ivf tv thr op q := mask_threshold_downscale E G ig og ivt ivf tv thr op Quantile q.

(** ** gradients *)
(** simple_gradient.cpp:16-18 and the same lines in the other overloads *)
Definition elev_corrected (dvalue oelev delev gradient : val) : val := vadd dvalue (vmul (vsub oelev delev) gradient).
(** simple_gradient(Grid, Points, vec2), simple_gradient.cpp:5-21 *)
Definition simple_gradient_gp2 (E : ext) (G : geo) (ig : grid) (op : points) (v : vec2) (gradient : val) (d : downscaler) : res vec :=
  c <- compat_grid2 ig v ;; if negb c then Throw InvalidArgument else
  dvalues <- downscaling_gp2 E G ig op v d ;;
  delevs <- downscaling_gp2 E G ig op (g_elevs ig) d ;;
  let n := points_size op in
  for1 n (init1 n MV) (fun i =>
    oe <- znth (s_elevs op) i ;; de <- znth delevs i ;; dv <- znth dvalues i ;; Ok (elev_corrected dv oe de gradient)).
(** simple_gradient(Grid, Grid, vec2), simple_gradient.cpp:23-44 *)
Definition simple_gradient_gg2 (E : ext) (G : geo) (ig og : grid) (v : vec2) (gradient : val) (d : downscaler) : res vec2 :=
  c <- compat_grid2 ig v ;; if negb c then Throw InvalidArgument else
  '(nLat, nLon) <- grid_size og ;;
  dvalues <- downscaling_gg2 E G ig og v d ;;
  delevs <- downscaling_gg2 E G ig og (g_elevs ig) d ;;
  for2 nLat nLon (init2 nLat nLon MV) (fun i j =>
    oe <- get2 (g_elevs og) i j ;; de <- get2 delevs i j ;; dv <- get2 dvalues i j ;; Ok (elev_corrected dv oe de gradient)).
(** simple_gradient(Grid, Points, vec3), simple_gradient.cpp:46-68; every output[t][i] is written once *)
Definition simple_gradient_gp3 (E : ext) (G : geo) (ig : grid) (op : points) (v : vec3) (gradient : val) (d : downscaler) : res vec2 :=
  c <- compat_grid3 ig v ;; if negb c then Throw InvalidArgument else
  dvalues <- downscaling_gp3 E G ig op v d ;;
  delevs <- downscaling_gp2 E G ig op (g_elevs ig) d ;;
  let n := points_size op in
  omp (mapM (fun t => for1 n (init1 n MV) (fun i =>
    oe <- znth (s_elevs op) i ;; de <- znth delevs i ;; dv <- get2 dvalues t i ;; Ok (elev_corrected dv oe de gradient))) (zrange 0 (zlen v))).
(** simple_gradient(Grid, Grid, vec3), simple_gradient.cpp:70-93 *)
Definition simple_gradient_gg3 (E : ext) (G : geo) (ig og : grid) (v : vec3) (gradient : val) (d : downscaler) : res vec3 :=
  c <- compat_grid3 ig v ;; if negb c then Throw InvalidArgument else
  '(nLat, nLon) <- grid_size og ;;
  dvalues <- downscaling_gg3 E G ig og v d ;;
  delevs <- downscaling_gg2 E G ig og (g_elevs ig) d ;;
  omp (mapM (fun t => for2 nLat nLon (init2 nLat nLon MV) (fun i j =>
    oe <- get2 (g_elevs og) i j ;; de <- get2 delevs i j ;; dv <- get3 dvalues t i j ;; Ok (elev_corrected dv oe de gradient))) (zrange 0 (zlen v))).

(** the correction of one kind, gradient.cpp:58-66 and the same lines elsewhere; [n] is the size of the downscaled gradient,
    the other arguments are the array reads *)
Definition correction (n : Z) (o i g : res val) : res val :=
  if 0 <? n then
    ov <- o ;; iv <- i ;; if is_valid ov && is_valid iv then gv <- g ;; Ok (vmul gv (vsub ov iv)) else Ok (fz 0)
  else Ok (fz 0).
(** size test of full_gradient, gradient.cpp:10-20 *)
Definition same_size (ig : grid) (f : vec2) : res bool :=
  '(y, x) <- grid_size ig ;; if negb (zlen f =? y) then Ok false else f0 <- znth f 0 ;; Ok (zlen f0 =? x).
Definition same_size_opt (ig : grid) (f : vec2) : res bool := if zlen f =? 0 then Ok true else same_size ig f.
(** full_gradient(Grid, Grid, vec2), gradient.cpp:5-81 *)
Definition full_gradient_gg2 (E : ext) (G : geo) (ig og : grid) (v eg lg : vec2) (d : downscaler) : res vec2 :=
  '(nY, nX) <- grid_size og ;;
  c1 <- same_size ig v ;; if negb c1 then Throw InvalidArgument else
  c2 <- same_size_opt ig lg ;; if negb c2 then Throw InvalidArgument else
  c3 <- same_size_opt ig eg ;; if negb c3 then Throw InvalidArgument else
  let has_e := negb (zlen eg =? 0) in let has_l := negb (zlen lg =? 0) in
  let fields := [v] ++ (if has_e then [eg; g_elevs ig] else []) ++ (if has_l then [lg; g_lafs ig] else []) in
  fd <- downscaling_gg3 E G ig og fields d ;;
  output <- znth fd 0 ;;
  '(deg, delevs) <- (if has_e then a <- znth fd 1 ;; b <- znth fd 2 ;; Ok (a, b) else Ok ([], [])) ;;
  let c := if has_e then 3 else 1 in
  '(dlg, dlafs) <- (if has_l then a <- znth fd c ;; b <- znth fd (c + 1) ;; Ok (a, b) else Ok ([], [])) ;;
  omp (for2 nY nX output (fun y x =>
    lc <- correction (zlen dlg) (get2 (g_lafs og) y x) (get2 dlafs y x) (get2 dlg y x) ;;
    ec <- correction (zlen deg) (get2 (g_elevs og) y x) (get2 delevs y x) (get2 deg y x) ;;
    o <- get2 output y x ;; Ok (vadd o (vadd lc ec)))).
(** the first n elements, by index *)
Definition take_n {A} (n : Z) (l : list A) : res (list A) := mapM (fun t => znth l t) (zrange 0 n).
Definition slice_n {A} (c n : Z) (l : list A) : res (list A) := mapM (fun t => znth l (c + t)) (zrange 0 n).
(** full_gradient(Grid, Grid, vec3), gradient.cpp:83-169; asserts are not modelled *)
Definition full_gradient_gg3 (E : ext) (G : geo) (ig og : grid) (v eg lg : vec3) (d : downscaler) : res vec3 :=
  '(nY, nX) <- grid_size og ;;
  let nTime := zlen v in
  let has_e := negb (zlen eg =? 0) in let has_l := negb (zlen lg =? 0) in
  fv <- take_n nTime v ;;
  fe <- (if has_e then a <- take_n nTime eg ;; Ok (a ++ [g_elevs ig]) else Ok []) ;;
  fl <- (if has_l then a <- take_n nTime lg ;; Ok (a ++ [g_lafs ig]) else Ok []) ;;
  fd <- downscaling_gg3 E G ig og (fv ++ fe ++ fl) d ;;
  output <- slice_n 0 nTime fd ;;
  '(deg, delevs) <- (if has_e then a <- slice_n nTime nTime fd ;; b <- znth fd (2 * nTime) ;; Ok (a, b) else Ok ([], [])) ;;
  let c := if has_e then 2 * nTime + 1 else nTime in
  '(dlg, dlafs) <- (if has_l then a <- slice_n c nTime fd ;; b <- znth fd (c + nTime) ;; Ok (a, b) else Ok ([], [])) ;;
  omp (mapM (fun t => out <- znth output t ;; for2 nY nX out (fun y x =>
    lc <- correction (zlen dlg) (get2 (g_lafs og) y x) (get2 dlafs y x) (get3 dlg t y x) ;;
    ec <- correction (zlen deg) (get2 (g_elevs og) y x) (get2 delevs y x) (get3 deg t y x) ;;
    o <- get2 out y x ;; Ok (vadd o (vadd lc ec)))) (zrange 0 nTime)).
(** full_gradient(Grid, Points, vec2), gradient.cpp:171-221; asserts are not modelled *)
Definition full_gradient_gp2 (E : ext) (G : geo) (ig : grid) (op : points) (v eg lg : vec2) (d : downscaler) : res vec :=
  let n := points_size op in
  output <- downscaling_gp2 E G ig op v d ;;
  '(deg, delevs) <- (if negb (zlen eg =? 0) then a <- downscaling_gp2 E G ig op eg d ;; b <- downscaling_gp2 E G ig op (g_elevs ig) d ;; Ok (a, b)
                     else Ok ([], [])) ;;
  '(dlg, dlafs) <- (if negb (zlen lg =? 0) then a <- downscaling_gp2 E G ig op lg d ;; b <- downscaling_gp2 E G ig op (g_lafs ig) d ;; Ok (a, b)
                    else Ok ([], [])) ;;
  for1 n output (fun i =>
    lc <- correction (zlen dlg) (znth (s_lafs op) i) (znth dlafs i) (znth dlg i) ;;
    ec <- correction (zlen deg) (znth (s_elevs op) i) (znth delevs i) (znth deg i) ;;
    o <- znth output i ;; Ok (vadd o (vadd lc ec))).
(** full_gradient(Grid, Points, vec3), gradient.cpp:223-274 *)
Definition full_gradient_gp3 (E : ext) (G : geo) (ig : grid) (op : points) (v eg lg : vec3) (d : downscaler) : res vec2 :=
  let n := points_size op in
  output <- downscaling_gp3 E G ig op v d ;;
  '(deg, delevs) <- (if negb (zlen eg =? 0) then a <- downscaling_gp3 E G ig op eg d ;; b <- downscaling_gp2 E G ig op (g_elevs ig) d ;; Ok (a, b)
                     else Ok ([], [])) ;;
  '(dlg, dlafs) <- (if negb (zlen lg =? 0) then a <- downscaling_gp3 E G ig op lg d ;; b <- downscaling_gp2 E G ig op (g_lafs ig) d ;; Ok (a, b)
                    else Ok ([], [])) ;;
  mapM (fun t => out <- znth output t ;; for1 n out (fun i =>
    lc <- correction (zlen dlg) (znth (s_lafs op) i) (znth dlafs i) (get2 dlg t i) ;;
    ec <- correction (zlen deg) (znth (s_elevs op) i) (znth delevs i) (get2 deg t i) ;;
    o <- znth out i ;; Ok (vadd o (vadd lc ec)))) (zrange 0 (zlen v)).
(** full_gradient_debug, gradient.cpp:276-366 *)
Definition full_gradient_debug (E : ext) (G : geo) (ig og : grid) (v eg lg : vec2) (d : downscaler) : res vec3 :=
  '(nY, nX) <- grid_size og ;;
  dvalues <- downscaling_gg2 E G ig og v d ;;
  '(deg, delevs) <- (if negb (zlen eg =? 0) then a <- downscaling_gg2 E G ig og eg d ;; b <- downscaling_gg2 E G ig og (g_elevs ig) d ;; Ok (a, b)
                     else Ok ([], [])) ;;
  '(dlg, dlafs) <- (if negb (zlen lg =? 0) then a <- downscaling_gg2 E G ig og lg d ;; b <- downscaling_gg2 E G ig og (g_lafs ig) d ;; Ok (a, b)
                    else Ok ([], [])) ;;
  tab2 nY nX (fun y x =>
    olaf <- get2 (g_lafs og) y x ;; ilaf <- get2 dlafs y x ;; oelev <- get2 (g_elevs og) y x ;; ielev <- get2 delevs y x ;;
    lc <- correction (zlen dlg) (Ok olaf) (Ok ilaf) (get2 dlg y x) ;;
    ec <- correction (zlen deg) (Ok oelev) (Ok ielev) (get2 deg y x) ;;
    dv <- get2 dvalues y x ;;
    Ok [vadd (vadd dv lc) ec; vsub olaf ilaf; vsub oelev ielev; lc; ec; olaf; ilaf; vadd dv lc; vadd dv ec]).

(** ** calc_gradient *)
(** enum GradientType, gridpp.h:126-129 *)
Inductive gradient_type := MinMax | LinearRegression | OtherGradientType.
(** compatible_size(vec2, vec2), util.cpp:439-447 *)
Definition compatible22 (a b : vec2) : bool := same_lens (fun u v => zlen u =? zlen v) a b.
(** state of the search for the extremes of the base, calc_gradient.cpp:30-58 *)
Record mm := { mm_max : val; mm_min : val; mm_imax : Z * Z; mm_imin : Z * Z; mm_count : Z }.
Definition mm_step (base values : vec2) (s : mm) (yx : Z * Z) : res mm :=
  b <- get2 base (fst yx) (snd yx) ;;
  if negb (is_valid b) then Ok s else
  v <- get2 values (fst yx) (snd yx) ;;
  if negb (is_valid v) then Ok s else
  let up := negb (is_valid (mm_max s)) || vltb (mm_max s) b in
  let dn := negb (is_valid (mm_min s)) || vltb b (mm_min s) in
  Ok {| mm_max := if up then b else mm_max s; mm_imax := if up then yx else mm_imax s;
        mm_min := if dn then b else mm_min s; mm_imin := if dn then yx else mm_imin s; mm_count := mm_count s + 1 |}.
Definition window_cells (nY nX h y x : Z) : list (Z * Z) :=
  flat_map (fun yy => map (fun xx => (yy, xx)) (zrange (Z.max 0 (x - h)) (Z.min (nX - 1) (x + h) + 1)))
           (zrange (Z.max 0 (y - h)) (Z.min (nY - 1) (y + h) + 1)).
(** one cell of the MinMax branch, calc_gradient.cpp:30-76; [abs] is the overload for floats *)
Definition minmax_gradient (base values : vec2) (nY nX h num_min : Z) (min_range default : val) (y x : Z) : res val :=
  s <- foldM (mm_step base values) {| mm_max := MV; mm_min := MV; mm_imax := (0, 0); mm_imin := (0, 0); mm_count := 0 |} (window_cells nY nX h y x) ;;
  if mm_count s <? num_min then Ok default else
  if negb (is_valid (mm_max s)) || negb (is_valid (mm_min s)) then Ok default else
  if vleb (vabs (vsub (mm_max s) (mm_min s))) min_range then Ok default else
  a <- get2 values (fst (mm_imax s)) (snd (mm_imax s)) ;; b <- get2 values (fst (mm_imin s)) (snd (mm_imin s)) ;;
  Ok (vdiv (vsub a b) (vsub (mm_max s) (mm_min s))).
(** for(y < base.size()) for(x < base[y].size()) out[y][x] = ..., calc_gradient.cpp:28-29 *)
Definition for2r {A} (base : vec2) (out : list (list A)) (body : Z -> Z -> res A) : res (list (list A)) :=
  foldM (fun o y => r <- znth base y ;; foldM (fun o x => v <- body y x ;; set2 o y x v) o (zrange 0 (zlen r))) out (zrange 0 (zlen base)).
(** one cell of the LinearRegression branch, calc_gradient.cpp:106-122 *)
Definition regression_cell (E : ext) (mX mY mXX mXY cnt : vec2) (num_min : Z) (min_range default : val) (y x : Z) : res val :=
  c <- get2 cnt y x ;;
  if negb (vleb (fz num_min) c) then Ok default else
  xx <- get2 mXX y x ;; if negb (is_valid xx) then Ok default else
  xy <- get2 mXY y x ;; if negb (is_valid xy) then Ok default else
  m <- get2 mX y x ;; if negb (is_valid m) then Ok default else
  let var := vsub xx (vmul m m) in
  if veqb var (fz 0) then Ok default else
  let range := vsqrt E var in
  if is_valid min_range && (negb (is_valid range) || vltb range min_range) then Ok default else
  my <- get2 mY y x ;;
  Ok (vdiv (vsub xy (vmul m my)) var).
(** calc_gradient.cpp:6-126 *)
Definition calc_gradient (E : ext) (base values : vec2) (gt : gradient_type) (h num_min : Z) (min_range default : val) : res vec2 :=
  if h <=? 0 then Throw InvalidArgument else
  if is_valid min_range && vltb min_range (fz 0) then Throw InvalidArgument else
  if num_min <? 0 then Throw InvalidArgument else
  if zlen base =? 0 then Throw InvalidArgument else
  if negb (compatible22 base values) then Throw InvalidArgument else
  b0 <- znth base 0 ;;
  let nY := zlen base in let nX := zlen b0 in
  let output := init2 nY nX default in
  match gt with
  | MinMax => for2r base output (minmax_gradient base values nY nX h num_min min_range default)
  | LinearRegression =>
    (* the five auxiliary fields, calc_gradient.cpp:82-99; every cell of each is written at most once *)
    let both f y x := b <- get2 base y x ;; v <- get2 values y x ;; Ok (if is_valid b && is_valid v then f b v else MV) in
    base0 <- omp (for2 nY nX (init2 nY nX MV) (both (fun b v => b))) ;;
    values0 <- omp (for2 nY nX (init2 nY nX MV) (both (fun b v => v))) ;;
    bxb <- omp (for2 nY nX (init2 nY nX MV) (both (fun b v => vmul b b))) ;;
    bxv <- omp (for2 nY nX (init2 nY nX MV) (both (fun b v => vmul b v))) ;;
    isv <- omp (for2 nY nX (init2 nY nX (fz 0)) (fun y x => b <- get2 base y x ;; v <- get2 values y x ;; Ok (if is_valid b && is_valid v then fz 1 else fz 0))) ;;
    mX <- neighbourhood E base0 h Mean ;; mY <- neighbourhood E values0 h Mean ;;
    mXX <- neighbourhood E bxb h Mean ;; mXY <- neighbourhood E bxv h Mean ;; cnt <- neighbourhood E isv h Sum ;;
    omp (for2 nY nX output (regression_cell E mX mY mXX mXY cnt num_min min_range default))
  | OtherGradientType => Ok output
  end.
