(** Model of Util::regression (src/client/Util.cpp) and of the training of the client's coastal calibrator (src/client/Calibrator/Coastal.cpp).  As in M_CCal. *)
From Verif Require Import Base M_Stat M_COpt M_CUtil M_CCal M_CCal2 M_CGradient M_Ensi.
Local Open Scope Z_scope.

(** the matrix A, Util.cpp:567-584 *)
Definition design (preds : list vec) (addConst : bool) (T N : Z) : res vec2 :=
  tab2 T N (fun t n => if addConst then if n =? 0 then Ok (fz 1) else p <- znth preds (n - 1) ;; znth p t else p <- znth preds n ;; znth p t).
(** Util::regression, Util.cpp:553-639.  [lu] stands for lu_factorize and lu_substitute of Boost with the unit matrix on the right: None if the factorisation reports a singular matrix, which
    the assertion in line 615 does not allow. *)
Definition regression (lu : vec2 -> option vec2) (y : vec) (preds : list vec) (addConst : bool) : res vec :=
  let N := zlen preds + (if addConst then 1 else 0) in
  let T := zlen y in
  if T <? 2 then Abort else
  if negb (forallb (fun p : vec => zlen p =? T) preds) then Abort else
  A <- design preds addConst T N ;;
  XT <- transp T N A ;;
  XTX <- mmul N T N XT A ;;
  match lu XTX with
  | None => Abort
  | Some XTXinv =>
    XTXinvXT <- mmul N N T XTXinv XT ;;
    solution <- mmul N T 1 XTXinvXT (map (fun v => [v]) y) ;;
    mapM (fun n => get2 solution n 0) (zrange 0 N)
  end.

(** the search in the neighbourhood, Coastal.cpp:112-126 *)
Definition coast_search (laf : list vec) (st : (Z * Z) * val * (Z * Z) * val) (c : Z * Z) : res ((Z * Z) * val * (Z * Z) * val) :=
  let '(pmin, minLaf, pmax, maxLaf) := st in
  currLaf <- get2 laf (fst c) (snd c) ;;
  let '(pmin, minLaf) := if vltb currLaf minLaf then (c, currLaf) else (pmin, minLaf) in
  let '(pmax, maxLaf) := if vltb maxLaf currLaf then (c, currLaf) else (pmax, maxLaf) in
  Ok (pmin, minLaf, pmax, maxLaf).
(** Coastal.cpp:139-162: y, x[0] and x[1] grow by the case [x], an observed field and a field with the ensemble *)
Definition coast_sample (E : ext) (useNN : bool) (pmin pmax : Z * Z) (minLaf maxLaf : val) (iIobs iJobs iIens iJens : Z) (s : vec * vec * vec) (x : field * field) : res (vec * vec * vec) :=
  let '(y, x0, x1) := s in
  obs <- f_get (fst x) iIobs iJobs 0 ;;
  ensMin <- f_ens (snd x) (fst pmin) (snd pmin) ;;
  valueMin <- calculate_stat E ensMin CMean (fz 0) ;;
  ensMax <- f_ens (snd x) (fst pmax) (snd pmax) ;;
  valueMax <- calculate_stat E ensMax CMean (fz 0) ;;
  ensNn <- f_ens (snd x) iIens iJens ;;
  valueNN <- calculate_stat E ensNn CMean (fz 0) ;;
  if cvalid obs && cvalid valueNN then
    let gradient := if cvalid valueMin && cvalid valueMax then vdiv (vsub valueMax valueMin) (vsub maxLaf minLaf) else fz 0 in
    Ok (y ++ [vsub obs (if useNN then valueNN else valueMin)], x0 ++ [fz 1], x1 ++ [gradient])
  else Ok s.
(** CalibratorCoastal::train, Coastal.cpp:96-202; without cases the reference iData[0] is undefined behaviour.  [laf] are the land fractions of the grid of the ensembles. *)
Definition coastal_train (E : ext) (lu : vec2 -> option vec2) (radius : Z) (minLafDiff : val) (useNN : bool) (laf : list vec) (data : list (field * field)) (iIobs iJobs iIens iJens : Z) : res vec :=
  match data with
  | [] => UB
  | x :: _ =>
    '(pmin, minLaf, pmax, maxLaf) <- foldM (coast_search laf) ((-999, -999), fz 2, (-999, -999), fz (-1)) (square (f_ny (snd x)) (f_nx (snd x)) radius iIens iJens) ;;
    let useRange := vltb minLafDiff (vsub maxLaf minLaf) in
    _ <- assert_ (negb (fst pmax =? -999)) ;;
    _ <- assert_ (negb (snd pmax =? -999)) ;;
    '(y, x0, x1) <- foldM (coast_sample E useNN pmin pmax minLaf maxLaf iIobs iJobs iIens iJens) ([], [], []) data ;;
    if zlen y <=? 0 then Abort else
    if useRange then
      values2 <- regression lu y [x0; x1] false ;;
      a <- znth values2 0 ;; c <- znth values2 1 ;; Ok [a; fz 1; c]
    else
      let '(total, counter) := fold_left csum_step y (fz 0, 0) in
      let a := if 0 <? counter then vdiv total (fz counter) else fz 0 in
      _ <- assert_ (cvalid a) ;; Ok [a; fz 1; fz 0]
  end.
