(** Model of src/api/curve.cpp and src/api/quantile_mapping.cpp. *)
From Verif Require Import Base M_Stat M_Interp.

(** gridpp::Extrapolation, include/gridpp.h:79-85; BadPolicy is any other int *)
Inductive policy := OneToOne | MeanSlope | NearestSlope | Zero | Unchanged | BadPolicy.

(** curve.cpp:36-72: slope for a policy, [below] is line 57's test *)
Definition curve_slope (pol : policy) (below : bool) (C : Z) (curve_ref curve_fcst : vec) : res val :=
  match pol with
  | Zero => Ok (fz 0)
  | _ =>
    if match pol with OneToOne => true | _ => false end || (C <=? 1) then Ok (fz 1) else
    match pol with
    | MeanSlope =>
      o0 <- znth curve_ref 0 ;; f0 <- znth curve_fcst 0 ;; ol <- znth curve_ref (C - 1) ;; fl <- znth curve_fcst (C - 1) ;;
      Ok (vdiv (vsub ol o0) (vsub fl f0))
    | NearestSlope =>
      if below then
        o1 <- znth curve_ref 1 ;; o0 <- znth curve_ref 0 ;; f1 <- znth curve_fcst 1 ;; f0 <- znth curve_fcst 0 ;;
        Ok (vdiv (vsub o1 o0) (vsub f1 f0))
      else
        o1 <- znth curve_ref (C - 1) ;; o0 <- znth curve_ref (C - 2) ;; f1 <- znth curve_fcst (C - 1) ;; f0 <- znth curve_fcst (C - 2) ;;
        Ok (vdiv (vsub o1 o0) (vsub f1 f0))
    | _ => Throw InvalidArgument
    end
  end.
(** curve.cpp:6-77 *)
Definition apply_curve (input : val) (curve_ref curve_fcst : vec) (policy_below policy_above : policy) : res val :=
  if negb (zlen curve_ref =? zlen curve_fcst) then Throw InvalidArgument else
  if zlen curve_ref =? 0 then Throw InvalidArgument else
  let C := zlen curve_fcst in
  smallestObs <- znth curve_ref 0 ;; smallestFcst <- znth curve_fcst 0 ;;
  largestObs <- znth curve_ref (C - 1) ;; largestFcst <- znth curve_fcst (C - 1) ;;
  if vleb smallestFcst input && vleb input largestFcst then interpolate input curve_fcst curve_ref else
  let below := vleb input smallestFcst in
  let nearestObs := if below then smallestObs else largestObs in
  let nearestFcst := if below then smallestFcst else largestFcst in
  let pol := if below then policy_below else policy_above in
  match pol with
  | Unchanged => Ok input
  | _ => slope <- curve_slope pol below C curve_ref curve_fcst ;; Ok (vadd nearestObs (vmul slope (vsub input nearestFcst)))
  end.
(** curve.cpp:79-94 *)
Definition apply_curve_vec (fcst curve_ref curve_fcst : vec) (pb pa : policy) : res vec :=
  if negb (zlen curve_ref =? zlen curve_fcst) then Throw InvalidArgument else
  if zlen curve_ref =? 0 then Throw InvalidArgument else
  omp (for1 (zlen fcst) (init1 (zlen fcst) MV) (fun i => input <- znth fcst i ;; apply_curve input curve_ref curve_fcst pb pa)).
(** curve.cpp:96-109 *)
Definition apply_curve_vec2 (fcst : vec2) (curve_ref curve_fcst : vec) (pb pa : policy) : res vec2 :=
  if negb (zlen curve_ref =? zlen curve_fcst) then Throw InvalidArgument else
  if zlen curve_ref =? 0 then Throw InvalidArgument else
  for1 (zlen fcst) (init1 (zlen fcst) []) (fun y => row <- znth fcst y ;; apply_curve_vec row curve_ref curve_fcst pb pa).
(** gridpp::compatible_size(vec3, vec3), util.cpp:462-474 *)
Fixpoint same_lens {A B} (f : A -> B -> bool) (a : list A) (b : list B) : bool :=
  match a, b with [], [] => true | x :: a, y :: b => f x y && same_lens f a b | _, _ => false end.
Definition compatible33 (a b : vec3) : bool := same_lens (same_lens (fun u v => zlen u =? zlen v)) a b.
(** curve.cpp:111-133; compatible_size(vec2, vec3) is in M_Stat *)
Definition apply_curve_vec3 (fcst : vec2) (curve_ref curve_fcst : vec3) (pb pa : policy) : res vec2 :=
  if negb (compatible33 curve_ref curve_fcst) then Throw InvalidArgument else
  c1 <- compatible_size_23 fcst curve_ref ;; if negb c1 then Throw InvalidArgument else
  c2 <- compatible_size_23 fcst curve_fcst ;; if negb c2 then Throw InvalidArgument else
  f0 <- znth fcst 0 ;;
  let nY := zlen fcst in let nX := zlen f0 in
  omp (for2 nY nX (init2 nY nX MV) (fun y x =>
    input <- get2 fcst y x ;; cr <- get2 curve_ref y x ;; cf <- get2 curve_fcst y x ;; apply_curve input cr cf pb pa)).

(** ** monotonize_curve, curve.cpp:134-250 *)
(** line 180; the float constant 0.1f is taken as 1/10 *)
Definition tol : Qc := Q2Qc (1 # 10).
(** new_indices (last pushed first), deviation, x_min, x_max, prev.
    Simplification: deviation_index is only printed and left out. *)
Record mstate := MS { ms_idx : list Z; ms_dev : bool; ms_min : val; ms_max : val; ms_prev : val }.
(** 199-209: remove points inside the deviation section *)
Fixpoint pop_from (fcst : vec) (lim : val) (stack : list Z) : res (list Z) :=
  match stack with
  | [] => Ok []
  | index :: rest => f <- znth fcst index ;; if vltb f (vsub lim (Fin tol)) then Ok stack else pop_from fcst lim rest
  end.
(** 181-230 *)
Definition mono_step (fcst : vec) (s : mstate) (i : Z) : res mstate :=
  x <- znth fcst i ;;
  if ms_dev s then
    let x_min := if vltb x (ms_min s) then x else ms_min s in
    if vltb (vadd (ms_max s) (Fin tol)) x then
      stack <- pop_from fcst x_min (ms_idx s) ;;
      Ok (MS (i :: stack) false x_min x x)
    else Ok (MS (ms_idx s) true x_min (ms_max s) (ms_prev s))
  else if vleb x (vadd (ms_prev s) (Fin tol)) then Ok (MS (ms_idx s) true x (ms_max s) (ms_prev s))
  else Ok (MS (i :: ms_idx s) false (ms_min s) x x).
(** 231-241: for(j = size-1; j >= 0; j--) { index = new_indices[j]; if(fcst[index] >= x_min) pop_back(); }
    [front] is the vector in order; j counts down *)
Fixpoint final_pops (fcst : vec) (x_min : val) (j : nat) (front : list Z) : res (list Z) :=
  match j with
  | O => Ok front
  | S j' =>
    index <- znth front (Z.of_nat j') ;;
    f <- znth fcst index ;;
    final_pops fcst x_min j' (if vleb x_min f then removelast front else front)
  end.
Definition monotonize_curve (curve_ref curve_fcst : vec) : res (vec * vec) :=
  if negb (zlen curve_ref =? zlen curve_fcst) then Throw InvalidArgument else
  if zlen curve_ref =? 0 then Throw InvalidArgument else
  let kept := filter (fun p => is_valid (fst p) && is_valid (snd p)) (combine curve_fcst curve_ref) in
  let fcst := map fst kept in let ref := map snd kept in
  let N := zlen ref in
  f0 <- znth fcst 0 ;;
  s <- foldM (mono_step fcst) (MS [0] false f0 f0 f0) (zrange 1 N) ;;
  let front := rev (ms_idx s) in
  idx <- (if ms_dev s then final_pops fcst (ms_min s) (length front) front else Ok front) ;;
  out_ref <- mapM (fun i => znth ref i) idx ;;
  out_fcst <- mapM (fun i => znth fcst i) idx ;;
  Ok (out_ref, out_fcst).

(** ** quantile_mapping_curve, quantile_mapping.cpp:5-47; returns (output_ref, output_fcst) *)
Definition quantile_mapping_curve (ref fcst quantiles : vec) : res (vec * vec) :=
  if negb (zlen ref =? zlen fcst) then Throw InvalidArgument else
  if negb (forallb (fun q => is_valid q && negb (vltb (fz 1) q) && negb (vltb q (fz 0))) quantiles) then Throw InvalidArgument else
  if zlen ref =? 0 then Ok (ref, fcst) else
  if zlen ref =? 1 then Ok (ref, fcst) else
  ref_sort <- std_sort ref ;;
  fcst_sort <- std_sort fcst ;;
  let S := zlen fcst_sort in
  if zlen quantiles =? 0 then Ok (ref_sort, fcst_sort) else
  out <- mapM (fun q => index <- to_int (vmul q (fz (S - 1))) ;; f <- znth fcst index ;; r <- znth ref index ;; Ok (r, f)) quantiles ;;
  Ok (map fst out, map snd out).
