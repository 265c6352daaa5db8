(** Model of more calibrators of the client: windDirection, regression, mask and override (src/client/Calibrator/).  As in M_CCal.  What the
    parameter file has for a time and a point is given by functions; so are sine and cosine, distances and nearest neighbours. *)
From Verif Require Import Base M_Stat M_COpt M_CUtil M_CCal.
Local Open Scope Z_scope.

(** Parameters::operator[], Parameters.cpp:20-37: an index that does not exist is an error *)
Definition par_get (p : vec) (i : Z) : res val := match znth p i with Ok v => Ok v | _ => Abort end.
(** Parameters::isValid, Parameters.cpp:42-48 *)
Definition par_valid (p : vec) : bool := forallb cvalid p.

(** WindDirection.cpp:72-89; [sn k dir] and [cs k dir] are the sine and cosine of k times a direction in degrees *)
Definition wind_factor (sn cs : Z -> val -> val) (dir : val) (par : vec) : res val :=
  if negb (cvalid dir) || negb (par_valid par) then Ok CMV else
  p0 <- par_get par 0 ;;
  factor <- foldM (fun acc k =>
    a <- par_get par (2 * k - 1) ;; b <- par_get par (2 * k) ;; Ok (vadd (vadd acc (vmul a (sn k dir))) (vmul b (cs k dir)))) p0 (zrange 1 5) ;;
  Ok (if vltb factor (fz 0) then fz 0 else factor).
(** WindDirection.cpp:15-56; [pars t y x]: the parameters *)
Definition wind_direction_calibrator (sn cs : Z -> val -> val) (numParameters : Z) (pars : Z -> Z -> Z -> vec) (d : dims) (directions winds : list field) : res (list field) :=
  if negb (numParameters =? 9) then Abort else
  each_time d (fun t =>
    f <- znth winds t ;;
    for3 d f (fun f i j e =>
      currDirection <- get4 directions t i j e ;;
      if cvalid currDirection then
        factor <- wind_factor sn cs currDirection (pars t i j) ;; v <- f_get f i j e ;; f_set f i j e (vmul factor v)
      else Ok f)).

(** Regression.cpp:68-78 and 81-91: the sum of the products of coefficients and predictors *)
Fixpoint regression_total (total : val) (p : Z) (coeffs : vec) (term : Z -> res val) : res val :=
  match coeffs with
  | [] => Ok total
  | coeff :: rest => if negb (cvalid coeff) then Ok CMV else v <- term p ;; regression_total (vadd total (vmul coeff v)) (p + 1) rest term
  end.
(** pow(x, p) with p = 0, 1, 2, ...; pow(x, 0) is 1 *)
Fixpoint vpow (x : val) (n : nat) : val := match n with O => fz 1 | S m => vmul x (vpow x m) end.
(** Regression.cpp:16-102.  A predictor that is named "1" is a field of ones.  Simplification: a predictor may be the calibrated variable
    itself, whose element is read before it is written. *)
Definition predictor (ps : list (option (list field))) (p t i j e : Z) : res val :=
  o <- znth ps p ;; match o with None => Ok (fz 1) | Some fs => get4 fs t i j e end.
Definition regression_calibrator (numParameters : Z) (pars : Z -> Z -> Z -> vec) (variables : list (option (list field))) (d : dims) (fields : list field) : res (list field) :=
  if numParameters =? 0 then Abort else
  if (0 <? zlen variables) && negb (numParameters =? zlen variables) then Abort else
  each_time d (fun t =>
    f <- znth fields t ;;
    for3 d f (fun f i j e =>
      x <- f_get f i j e ;;
      if cvalid x then
        total <- (if 0 <? zlen variables then regression_total (fz 0) 0 (pars t i j) (fun p => predictor variables p t i j e)
                  else regression_total (fz 0) 0 (pars t i j) (fun p => Ok (vpow x (Z.to_nat p)))) ;;
        f_set f i j e total
      else f_set f i j e CMV)).
(** Regression.cpp:104-170; the data are observations with the ensembles *)
Definition train_step (E : ext) (s : val * val * val * val * Z) (x : val * vec) : res (val * val * val * val * Z) :=
  let '(totalObs, totalForecast, totalForecast2, totalObsForecast, counter) := s in
  ensMean <- calculate_stat E (snd x) CMean (fz 0) ;;
  if cvalid (fst x) && cvalid ensMean then
    Ok (vadd totalObs (fst x), vadd totalForecast ensMean, vadd totalForecast2 (vmul ensMean ensMean), vadd totalObsForecast (vmul (fst x) ensMean), counter + 1)
  else Ok s.
Definition regression_train (E : ext) (order : Z) (intercept : bool) (numVariables : Z) (data : list (val * vec)) : res vec :=
  if 1 <? order then Abort else if 0 <? numVariables then Abort else
  '(totalObs, totalForecast, totalForecast2, totalObsForecast, counter) <- foldM (train_step E) (fz 0, fz 0, fz 0, fz 0, 0) data ;;
  if counter <=? 0 then Abort else
  let meanObs := vdiv totalObs (fz counter) in
  let meanForecast := vdiv totalForecast (fz counter) in
  let meanForecast2 := vdiv totalForecast2 (fz counter) in
  let meanObsForecast := vdiv totalObsForecast (fz counter) in
  if order =? 0 then Ok [meanObs]
  else if order =? 1 then
    if intercept then
      let slope := vdiv (vsub meanObsForecast (vmul meanForecast meanObs)) (vsub meanForecast2 (vmul meanForecast meanForecast)) in
      Ok [vsub meanObs (vmul slope meanForecast); slope]
    else Ok [fz 0; vdiv meanObsForecast meanForecast2]
  else Abort.

(** Mask.cpp:52-59: some location is closer than its radius; [dist k] is the distance to location k, [radius k] its parameter *)
Definition mask_near (n : Z) (dist radius : Z -> val) (flag : bool) : bool :=
  fold_left (fun b k => if cvalid (dist k) && vltb (dist k) (radius k) then true else b) (zrange 0 n) flag.
(** Mask.cpp:13-75; mUseNearestOnly is always false.  The flags are kept from one time to the next. *)
Definition mask_calibrator (keep timeDependent : bool) (n : Z) (dist : Z -> Z -> Z -> val) (radius : Z -> Z -> val) (d : dims) (fields : list field) : res (list field) :=
  '(out, _) <- foldM (fun st t => let '(out, isWithinRadius) := st in
    f <- znth fields t ;;
    '(f, isWithinRadius) <- foldM (fun st c => let '(f, isWithinRadius) := st in let '(i, j) := c in
      flag <- get2 isWithinRadius i j ;;
      let flag := if (t =? 0) || timeDependent then mask_near n (dist i j) (radius t) flag else flag in
      isWithinRadius <- set2 isWithinRadius i j flag ;;
      f <- (if negb (eqb keep flag) then foldM (fun f e => f_set f i j e CMV) f (zrange 0 (d_e d)) else Ok f) ;;
      Ok (f, isWithinRadius)) (f, isWithinRadius) (flat_map (fun i => map (fun j => (i, j)) (zrange 0 (d_x d))) (zrange 0 (d_y d))) ;;
    Ok (out ++ [f], isWithinRadius)) ([], init2 (d_y d) (d_x d) false) (zrange 0 (d_t d)) ;;
  Ok out.

(** Override.cpp:15-76.  [nn k] is the nearest point to location k, [values t k] its parameter, [pelev k] its elevation, [elev y x] that of a point.
    abs is taken to be that of numbers, not of integers. *)
Definition override_step (radius : Z) (maxElevDiff : val) (nn : Z -> Z * Z) (value : Z -> val) (pelev : Z -> val) (elev : Z -> Z -> val) (d : dims) (f : field) (k : Z) : res field :=
  let '(Ynn, Xnn) := nn k in
  if cvalid (value k) then
    if (0 <? Ynn) && (Ynn <? d_y d - 1) && (0 <? Xnn) && (Xnn <? d_x d - 1) then
      foldM (fun f e => foldM (fun f y => foldM (fun f x =>
        if negb (cvalid maxElevDiff) then f_set f y x e (value k)
        else if cvalid (elev y x) && cvalid (pelev k) then
          if vltb (vabs (vsub (elev y x) (pelev k))) maxElevDiff then f_set f y x e (value k) else Ok f
        else Ok f)
        f (zrange (Z.max 0 (Xnn - radius)) (Z.min (d_x d - 1) (Xnn + radius) + 1)))
        f (zrange (Z.max 0 (Ynn - radius)) (Z.min (d_y d - 1) (Ynn + radius) + 1)))
        f (zrange 0 (d_e d))
    else Ok f
  else Ok f.
Definition override_calibrator (numParameters : Z) (locationDependent : bool) (radius : Z) (maxElevDiff : val) (n : Z) (nn : Z -> Z * Z) (values : Z -> Z -> val) (pelev : Z -> val)
    (elev : Z -> Z -> val) (d : dims) (fields : list field) : res (list field) :=
  if negb (numParameters =? 1) then Abort else if negb locationDependent then Abort else
  each_time d (fun t => f <- znth fields t ;; foldM (override_step radius maxElevDiff nn (values t) pelev elev d) f (zrange 0 n)).
