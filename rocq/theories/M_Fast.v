(** Model of neighbourhood_quantile_fast (src/api/neighbourhood.cpp:296-527). *)
From Verif Require Import Base M_Stat M_Interp M_Neigh.

(** 315-322, 426-433: a level is acceptable if it is missing or in [0,1] *)
Definition level_ok (q : val) : bool := negb (is_valid q) || negb (vltb q (fz 0) || vltb (fz 1) q).
(** 312, 423: size tests on the level field; the second operand of each && is only evaluated if the first holds *)
Definition has_size (quantile : vec2) (nY nX : Z) : res bool :=
  if zlen quantile =? nY then q0 <- znth quantile 0 ;; Ok (zlen q0 =? nX) else Ok false.
(** 342-357: fraction (0, 1 or missing) for a single value *)
Definition frac_single (v threshold : val) : val :=
  if is_valid v then vdiv (fz (if vleb v threshold then 1 else 0)) (fz 1) else MV.
(** 454-470: fraction of the valid members at or below the threshold *)
Definition frac_step (threshold : val) (s : Z * Z) (v : val) : Z * Z :=
  if is_valid v then ((if vleb v threshold then fst s + 1 else fst s), snd s + 1) else s.
Definition frac_members (members : vec) (threshold : val) : val :=
  let '(sum, count) := fold_left (frac_step threshold) members (0, 0) in
  if 0 <? count then vdiv (fz sum) (fz count) else MV.
(** 335-359, 447-473: for each threshold the neighbourhood mean of the fractions *)
Definition fast_stats (E : ext) (nY nX halfwidth : Z) (thresholds : vec) (frac : Z -> Z -> val -> res val) : res vec3 :=
  omp (for1 (zlen thresholds) (init1 (zlen thresholds) (init1 nY [])) (fun t =>
    thr <- znth thresholds t ;;
    temp <- for2 nY nX (init2 nY nX MV) (fun y x => frac y x thr) ;;
    neighbourhood E temp halfwidth Mean)).
(** 388-392, 504-508 *)
Definition clamp01 (v : val) : val := if vltb (fz 1) v then fz 1 else if vltb v (fz 0) then fz 0 else v.
(** 378-396 (2D) and 491-512 (3D: the same value is accumulated nE times); None sets is_missing *)
Definition yval2 (s : val) : option val := if is_valid s then Some (clamp01 (vdiv s (fz 1))) else None.
Definition yval3 (nE : Z) (s : val) : option val :=
  let '(sum, count) := fold_left (fun a (_ : Z) => if is_valid s then (vadd (fst a) s, snd a + 1) else a) (zrange 0 nE) (fz 0, 0) in
  if 0 <? count then Some (clamp01 (vdiv sum (fz count))) else None.
Fixpoint all_some (l : list (option val)) : option vec :=
  match l with
  | [] => Some []
  | None :: _ => None
  | Some v :: t => match all_some t with Some r => Some (v :: r) | None => None end
  end.
(** 375-405, 489-521: one output cell.  The three uses of curr_quantile are separate reads (q1, q2, q3); in a
    sequential run all three are the cell's level. *)
Definition fast_cell3 (thresholds : vec) (stats : vec3) (yval : val -> option val) (q1 q2 q3 : val) (y x : Z) : res val :=
  ys <- mapM (fun t => s <- get3 stats t y x ;; Ok (yval s)) (zrange 0 (zlen thresholds)) ;;
  match all_some ys with
  | None => Ok MV
  | Some yarray =>
    first <- znth yarray 0 ;;
    last <- znth yarray (zlen yarray - 1) ;;
    if veqb q1 (fz 1) && veqb first (fz 1) then znth thresholds 0
    else if veqb q2 (fz 0) && veqb last (fz 0) then znth thresholds (zlen thresholds - 1)
    else interpolate q3 yarray thresholds
  end.
Definition fast_cell thresholds stats yval q y x := fast_cell3 thresholds stats yval q q q y x.
(** everything after the argument checks; the sequential order of the last loop *)
Definition fast_tail (E : ext) (nY nX halfwidth : Z) (quantile : vec2) (fixed : bool) (thresholds : vec)
    (frac : Z -> Z -> val -> res val) (yval : val -> option val) : res vec2 :=
  if zlen thresholds =? 0 then Ok (init2 nY nX MV) else
  stats <- fast_stats E nY nX halfwidth thresholds frac ;;
  fixed_quantile <- (if fixed then get2 quantile 0 0 else Ok MV) ;;
  omp (for2 nY nX (init2 nY nX MV) (fun y x =>
    q <- (if fixed then Ok fixed_quantile else get2 quantile y x) ;;
    fast_cell thresholds stats yval q y x)).
(** neighbourhood.cpp:302-409 *)
Definition quantile_fast2 (E : ext) (input : vec2) (quantile : vec2) (halfwidth : Z) (thresholds : vec) : res vec2 :=
  if halfwidth <? 0 then Throw InvalidArgument else
  if zlen input =? 0 then Ok [] else
  i0 <- znth input 0 ;;
  if zlen i0 =? 0 then Ok [] else
  let nY := zlen input in let nX := zlen i0 in
  fixed <- has_size quantile 1 1 ;;
  full <- (if fixed then Ok true else has_size quantile nY nX) ;;
  if negb full then Throw InvalidArgument else
  if negb (forallb (forallb level_ok) quantile) then Throw InvalidArgument else
  fast_tail E nY nX halfwidth quantile fixed thresholds (fun y x thr => v <- get2 input y x ;; Ok (frac_single v thr)) yval2.
(** neighbourhood.cpp:417-527 *)
Definition quantile_fast3 (E : ext) (input : vec3) (quantile : vec2) (halfwidth : Z) (thresholds : vec) : res vec2 :=
  if halfwidth <? 0 then Throw InvalidArgument else
  if zlen input =? 0 then Ok [] else
  i0 <- znth input 0 ;;
  if zlen i0 =? 0 then Ok [] else
  i00 <- znth i0 0 ;;
  if zlen i00 =? 0 then Ok [] else
  let nY := zlen input in let nX := zlen i0 in let nE := zlen i00 in
  fixed <- has_size quantile 1 1 ;;
  full <- (if fixed then Ok true else has_size quantile nY nX) ;;
  if negb full then Throw InvalidArgument else
  if negb (forallb (forallb level_ok) quantile) then Throw InvalidArgument else
  fast_tail E nY nX halfwidth quantile fixed thresholds
    (fun y x thr => members <- mapM (fun e => get3 input y x e) (zrange 0 nE) ;; Ok (frac_members members thr)) (yval3 nE).
(** scalar level, neighbourhood.cpp:296-301 and 411-416 *)
Definition neighbourhood_quantile_fast E input (quantile : val) halfwidth thresholds := quantile_fast2 E input [[quantile]] halfwidth thresholds.
Definition neighbourhood_quantile_fast3 E input (quantile : val) halfwidth thresholds := quantile_fast3 E input [[quantile]] halfwidth thresholds.
