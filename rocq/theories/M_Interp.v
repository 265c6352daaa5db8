(** Model of get_lower_index, get_upper_index, interpolate (src/api/util.cpp:339-426). *)
From Verif Require Import Base.

(** util.cpp:339-357.  [int index = gridpp::MV] converts NaN to int.  Simplification: the conversion is treated as an
    uninitialised variable (None); returning it is UB. *)
Fixpoint lower_loop (iX : val) (i : Z) (index : option Z) (l : vec) : option Z :=
  match l with
  | [] => index
  | currValue :: t =>
    if is_valid currValue then
      if vltb currValue iX then lower_loop iX (i + 1) (Some i) t
      else if veqb currValue iX then Some i
      else if vltb iX currValue then index
      else lower_loop iX (i + 1) index t
    else lower_loop iX (i + 1) index t
  end.
Definition of_index (o : option Z) : res Z := match o with Some i => Ok i | None => UB end.
Definition get_lower_index (iX : val) (iValues : vec) : res Z := of_index (lower_loop iX 0 None iValues).
(** util.cpp:358-376: the same from the end *)
Fixpoint upper_loop (iX : val) (i : Z) (index : option Z) (l : vec) : option Z :=
  match l with
  | [] => index
  | currValue :: t =>
    if is_valid currValue then
      if vltb iX currValue then upper_loop iX (i - 1) (Some i) t
      else if veqb currValue iX then Some i
      else if vltb currValue iX then index
      else upper_loop iX (i - 1) index t
    else upper_loop iX (i - 1) index t
  end.
Definition get_upper_index (iX : val) (iValues : vec) : res Z :=
  of_index (upper_loop iX (zlen iValues - 1) None (rev iValues)).

(** util.cpp:377-414 *)
Definition interpolate (x : val) (iX iY : vec) : res val :=
  if negb (is_valid x) then Ok MV else
  if negb (zlen iX =? zlen iY) then Throw InvalidArgument else
  if zlen iX =? 0 then Ok MV else
  xl <- znth iX (zlen iX - 1) ;;
  if vltb xl x then znth iY (zlen iX - 1) else
  x0 <- znth iX 0 ;;
  if vltb x x0 then znth iY 0 else
  i0 <- get_lower_index x iX ;;
  i1 <- get_upper_index x iX ;;
  x0 <- znth iX i0 ;; x1 <- znth iX i1 ;; y0 <- znth iY i0 ;; y1 <- znth iY i1 ;;
  if veqb x0 x1 then
    Ok (if (i0 =? 0) && (i1 =? zlen iX - 1) then vdiv (vadd y0 y1) (fz 2)
        else if i0 =? 0 then y1
        else if i1 =? zlen iX - 1 then y0
        else vdiv (vadd y0 y1) (fz 2))
  else Ok (vadd y0 (vdiv (vmul (vsub y1 y0) (vsub x x0)) (vsub x1 x0))).

(** util.cpp:415-426; the loop is an omp parallel for *)
Definition interpolate_vec (x : vec) (iX iY : vec) : res vec :=
  if negb (zlen iX =? zlen iY) then Throw InvalidArgument else
  omp (for1 (zlen x) (init1 (zlen x) (fz 0)) (fun i => xi <- znth x i ;; interpolate xi iX iY)).
