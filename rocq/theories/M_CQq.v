(** Model of the client's qq calibrator (src/client/Calibrator/Qq.cpp).  Policies are those of M_Curve; the constructor only makes the four
    ordinary ones.  What the parameter file has for a time and a point is given by a function. *)
From Verif Require Import Base M_Stat M_Curve M_COpt M_CUtil M_CCal M_CCal2.
Local Open Scope Z_scope.

(** Qq.cpp:251-269: observations and forecasts alternate in the parameters; the extra points are added and both vectors sorted anew *)
Definition qq_separate (extraObs extraFcst : vec) (par : vec) : res (vec * vec) :=
  let N := Z.quot (zlen par) 2 in
  obs <- mapM (fun i => par_get par (2 * i)) (zrange 0 N) ;;
  fcst <- mapM (fun i => par_get par (2 * i + 1)) (zrange 0 N) ;;
  if 0 <? zlen extraObs then
    obs <- std_sort (obs ++ extraObs) ;; fcst <- std_sort (fcst ++ extraFcst) ;; Ok (obs, fcst)
  else Ok (obs, fcst).
(** Qq.cpp:110-136: the slope outside the curve *)
Definition qq_slope (pol : policy) (below : bool) (obs fcst : vec) : res val :=
  let N := zlen obs in
  let slope := match pol with Zero => fz 0 | _ => fz 1 end in
  if match pol with OneToOne => true | _ => false end || (N <=? 1) then Ok (fz 1) else
  match pol with
  | MeanSlope =>
    o0 <- znth obs 0 ;; f0 <- znth fcst 0 ;; ol <- znth obs (N - 1) ;; fl <- znth fcst (zlen fcst - 1) ;;
    Ok (vdiv (vsub ol o0) (vsub fl f0))
  | NearestSlope =>
    if below then
      o1 <- znth obs 1 ;; o0 <- znth obs 0 ;; f1 <- znth fcst 1 ;; f0 <- znth fcst 0 ;;
      Ok (vdiv (vsub o1 o0) (vsub f1 f0))
    else
      o1 <- znth obs (N - 1) ;; o0 <- znth obs (N - 2) ;; f1 <- znth fcst (N - 1) ;; f0 <- znth fcst (N - 2) ;;
      Ok (vdiv (vsub o1 o0) (vsub f1 f0))
  | _ => Ok slope
  end.
(** Qq.cpp:90-139: the calibrated value of a forecast *)
Definition qq_value (pol : policy) (obs fcst : vec) (raw : val) : res val :=
  smallestObs <- znth obs 0 ;; smallestFcst <- znth fcst 0 ;;
  largestObs <- znth obs (zlen obs - 1) ;; largestFcst <- znth fcst (zlen fcst - 1) ;;
  if vltb smallestFcst raw && vltb raw largestFcst then client_interpolate raw fcst obs else
  let below := vleb raw smallestFcst in
  let nearestObs := if below then smallestObs else largestObs in
  let nearestFcst := if below then smallestFcst else largestFcst in
  slope <- qq_slope pol below obs fcst ;;
  Ok (vadd nearestObs (vmul slope (vsub raw nearestFcst))).
(** Qq.cpp:66-152 for one element.  Simplification: the parameters of a point are separated for each member anew. *)
Definition qq_element (pol : policy) (extraObs extraFcst : vec) (par : vec) (f : field) (i j e : Z) : res field :=
  '(obs, fcst) <- qq_separate extraObs extraFcst par ;;
  if zlen obs <? 1 then Abort else
  if forallb cvalid obs && forallb cvalid fcst then
    raw <- f_get f i j e ;;
    if cvalid raw then value <- qq_value pol obs fcst raw ;; f_set f i j e value
    else f_set f i j e CMV
  else Ok f.
(** Qq.cpp:31-37 and 39-157; [pars t y x]: the parameters *)
Definition qq_calibrator (pol : policy) (extraObs extraFcst : vec) (numParameters : Z) (pars : Z -> Z -> Z -> vec) (d : dims) (fields : list field) : res (list field) :=
  if negb (zlen extraObs =? zlen extraFcst) then Abort else
  if negb (Z.rem numParameters 2 =? 0) then Abort else
  each_time d (fun t => f <- znth fields t ;; for3 d f (fun f i j e => qq_element pol extraObs extraFcst (pars t i j) f i j e)).

(** Qq.cpp:159-231; the data are observations with the ensembles *)
Definition qq_train_step (E : ext) (s : vec * vec) (x : val * vec) : res (vec * vec) :=
  currFcst <- calculate_stat E (snd x) CMean (fz 0) ;;
  if cvalid (fst x) && cvalid currFcst then Ok (fst s ++ [fst x], snd s ++ [currFcst]) else Ok s.
Fixpoint interleave (a b : vec) : vec := match a, b with x :: a, y :: b => x :: y :: interleave a b | _, _ => [] end.
Definition qq_train (E : ext) (quantiles extraObs extraFcst : vec) (data : list (val * vec)) : res vec :=
  if negb (zlen extraObs =? zlen extraFcst) then Abort else
  '(obs, fcst) <- foldM (qq_train_step E) ([], []) data ;;
  obs <- std_sort obs ;; fcst <- std_sort fcst ;;
  '(obsQ, fcstQ) <-
    (if zlen obs =? 0 then Ok ([], [])
     else if 0 <? zlen quantiles then
       let N := zlen obs in
       let x := map (fun i => vdiv (fz i) (fz (N - 1))) (zrange 0 N) in
       obsQ <- mapM (fun q => client_interpolate q x obs) quantiles ;;
       fcstQ <- mapM (fun q => client_interpolate q x fcst) quantiles ;;
       Ok (obsQ, fcstQ)
     else Ok (obs, fcst)) ;;
  if 0 <? zlen extraObs then
    obsQ <- std_sort (obsQ ++ extraObs) ;; fcstQ <- std_sort (fcstQ ++ extraFcst) ;; Ok (interleave obsQ fcstQ)
  else Ok (interleave obsQ fcstQ).
