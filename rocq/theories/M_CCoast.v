(** Model of the client's coastal calibrator, src/client/Calibrator/Coastal.cpp.  As in M_CCal; the rows are calibrated one after the other here, though the loop over them is
    parallel and reads what the other rows write (see DESIGN.md). *)
From Verif Require Import Base M_Stat M_COpt M_CUtil M_CCal M_CCal2 M_CGradient.
Local Open Scope Z_scope.

(** the search in the neighbourhood, Coastal.cpp:56-68 *)
Definition coast_step (laf : list vec) (f : field) (e : Z) (st : val * val * val * val) (c : Z * Z) : res (val * val * val * val) :=
  let '(lowerValue, minLaf, upperValue, maxLaf) := st in let '(ii, jj) := c in
  currLaf <- get2 laf ii jj ;;
  '(lowerValue, minLaf) <- (if vltb currLaf minLaf then v <- f_get f ii jj e ;; Ok (v, currLaf) else Ok (lowerValue, minLaf)) ;;
  '(upperValue, maxLaf) <- (if vltb maxLaf currLaf then v <- f_get f ii jj e ;; Ok (v, currLaf) else Ok (upperValue, maxLaf)) ;;
  Ok (lowerValue, minLaf, upperValue, maxLaf).
(** Coastal.cpp:50-87: the value for an element *)
Definition coast_value (radius : Z) (minLafDiff : val) (useNN : bool) (par : vec) (laf : list vec) (d : dims) (f : field) (i j e : Z) : res val :=
  nearestNeighbour <- f_get f i j e ;;
  '(lowerValue, minLaf, upperValue, maxLaf) <- foldM (coast_step laf f e) (CMV, fz 2, CMV, fz (-1)) (square (d_y d) (d_x d) radius i j) ;;
  a <- par_get par 0 ;; b <- par_get par 1 ;; c <- par_get par 2 ;;
  let gradient := if cvalid lowerValue && cvalid upperValue && vltb minLafDiff (vsub maxLaf minLaf) then vdiv (vsub upperValue lowerValue) (vsub maxLaf minLaf) else fz 0 in
  _ <- assert_ (cvalid gradient) ;;
  _ <- assert_ (cvalid nearestNeighbour) ;;
  let value := vadd (vadd a (vmul b (if useNN then nearestNeighbour else lowerValue))) (vmul c gradient) in
  _ <- assert_ (cvalid value) ;;
  Ok value.
(** CalibratorCoastal::calibrateCore, Coastal.cpp:18-94: [nPars] and [dep] tell the number of parameters and whether the file has locations *)
Definition coastal_calibrator (radius : Z) (minLafDiff : val) (useNN : bool) (nPars : Z) (dep : bool) (pars : Z -> Z -> Z -> vec) (laf : list vec) (d : dims) (fields : list field) : res (list field) :=
  if nPars =? 0 then Abort else if negb dep then Abort else
  each_time d (fun t => f <- znth fields t ;; for3 d f (fun f i j e => v <- coast_value radius minLafDiff useNN (pars t i j) laf d f i j e ;; f_set f i j e v)).
