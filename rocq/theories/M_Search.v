(** Model of neighbourhood_search (src/api/neighbourhood_search.cpp:7-113). *)
From Verif Require Import Base.

(** std::min *)
Definition vmin (a b : val) : val := if vltb b a then b else a.
(** lines 78-79: distance of a search value to the target range *)
Definition target_dist (tmin tmax s : val) : val := vmin (vabs (vsub s tmin)) (vabs (vsub s tmax)).
(** nearest_target, I_nearestSearchArray_Y, I_nearestSearchArray_X, counter, accum_temp *)
Record sstate := SS { ss_near : val; ss_y : Z; ss_x : Z; ss_n : Z; ss_acc : val }.
(** lines 49-91: one window cell; [active] is line 58's condition *)
Definition search_step (array search : vec2) (tmin tmax delta own : val) (active : bool) (s : sstate) (c : Z * Z) : res sstate :=
  sv <- get2 search (fst c) (snd c) ;;
  av <- get2 array (fst c) (snd c) ;;
  if negb (is_valid sv) || negb (is_valid av) then Ok s else
  if active then
    if vleb tmin sv && vleb sv tmax then Ok (SS (ss_near s) (ss_y s) (ss_x s) (ss_n s + 1) (vadd (ss_acc s) av))
    else if 0 <? ss_n s then Ok s
    else if vleb delta (vabs (vsub sv own)) then
      if negb (is_valid (ss_near s)) then Ok (SS sv (fst c) (snd c) (ss_n s) (ss_acc s))
      else if vltb (target_dist tmin tmax sv) (target_dist tmin tmax (ss_near s)) then Ok (SS sv (fst c) (snd c) (ss_n s) (ss_acc s))
      else Ok s
    else Ok s
  else Ok s.
(** the window, row by row (lines 46-47) *)
Definition window_cells (nY nX y x h : Z) : list (Z * Z) :=
  concat (map (fun yy => map (fun xx => (yy, xx)) (zrange (Z.max 0 (x - h)) (Z.min (nX - 1) (x + h) + 1))) (zrange (Z.max 0 (y - h)) (Z.min (nY - 1) (y + h) + 1))).
(** lines 30-108: one output cell.  apply_array holds ints, so the is_valid test on it (line 41) is always true *)
Definition search_cell (array search : vec2) (nY nX h : Z) (tmin tmax delta : val) (apply : list (list Z)) (y x : Z) : res val :=
  own <- get2 search y x ;;
  orig <- get2 array y x ;;
  if negb (is_valid own) then Ok orig else
  let use_apply := 0 <? zlen apply in
  a <- (if use_apply then get2 apply y x else Ok 1) ;;
  if use_apply && (a =? 0) then Ok orig else
  s <- foldM (search_step array search tmin tmax delta own (negb use_apply || (a =? 1))) (SS MV 0 0 0 (fz 0)) (window_cells nY nX y x h) ;;
  if 0 <? ss_n s then Ok (vdiv (ss_acc s) (fz (ss_n s)))
  else if is_valid (ss_near s) then get2 array (ss_y s) (ss_x s)
  else Ok orig.
(** lines 7-113 *)
Definition neighbourhood_search (array search : vec2) (halfwidth : Z) (tmin tmax delta : val) (apply : list (list Z)) : res vec2 :=
  if vltb tmax tmin then Throw InvalidArgument else
  if halfwidth <? 0 then Throw InvalidArgument else
  size_ok <- (if zlen search =? zlen array then s0 <- znth search 0 ;; a0 <- znth array 0 ;; Ok (zlen s0 =? zlen a0) else Ok false) ;;
  if negb size_ok then Throw InvalidArgument else
  apply_ok <- (if 1 <? zlen apply then
      (if zlen apply =? zlen array then p0 <- znth apply 0 ;; a0 <- znth array 0 ;; Ok (zlen p0 =? zlen a0) else Ok false)
    else Ok true) ;;
  if negb apply_ok then Throw InvalidArgument else
  a0 <- znth array 0 ;;
  let nY := zlen array in let nX := zlen a0 in
  foldM (fun o y => row <- znth array y ;;
    foldM (fun o x => v <- search_cell array search nY nX halfwidth tmin tmax delta apply y x ;; set2 o y x v) o (zrange 0 (zlen row)))
    (init2 nY nX MV) (zrange 0 nY).
