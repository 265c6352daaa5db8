(** Model of window (src/api/window.cpp:6-156). *)
From Verif Require Import Base M_Stat.

(** window.cpp:37-54: running sums and counts of the valid values.  Counts are floats in the code; exact here. *)
Definition accum_step (row : vec) (s : vec * vec) (x : Z) : res (vec * vec) :=
  let '(values, counts) := s in
  a <- znth row x ;;
  if x =? 0 then
    if is_valid a then v <- zset values x a ;; c <- zset counts x (fz 1) ;; Ok (v, c) else Ok s
  else
    pv <- znth values (x - 1) ;; pc <- znth counts (x - 1) ;;
    if is_valid a then v <- zset values x (vadd a pv) ;; c <- zset counts x (vadd pc (fz 1)) ;; Ok (v, c)
    else v <- zset values x pv ;; c <- zset counts x pc ;; Ok (v, c).
Definition accumulate (row : vec) : res (vec * vec) :=
  let n := zlen row in
  foldM (accum_step row) (init1 n (fz 0), init1 n (fz 0)) (zrange 0 n).
(** window.cpp:56-109, one output value.  [oob] is the outcome of reading counts[-1], which lines 83, 88 and 92 do
    whenever start = 0; output[y][x] is MV before the iteration (line 24) and touched by no other iteration. *)
Definition fast_cell (oob : res val) (nX length : Z) (statistic : statistic) (before keep_missing missing_edges : bool)
    (row values counts : vec) (x : Z) : res val :=
  let start := if before then Z.max 0 (x - length + 1) else Z.max 0 (x - Z.quot length 2) in
  let iend := if before then x else Z.min (nX - 1) (x + Z.quot length 2) in
  let counts_before := if start =? 0 then oob else znth counts (start - 1) in
  ce <- znth counts iend ;;
  out <- (if 0 <=? start - 1 then
            cs <- znth counts (start - 1) ;;
            if negb (veqb (vsub ce cs) (fz 0)) then
              ve <- znth values iend ;; vs <- znth values (start - 1) ;; Ok (vsub ve vs)
            else Ok MV
          else if negb (veqb ce (fz 0)) then znth values iend else Ok MV) ;;
  if stat_eqb statistic Count then cs <- counts_before ;; Ok (vsub ce cs)
  else
  out <- (if stat_eqb statistic Mean && negb (veqb ce (fz 0)) then cs <- counts_before ;; Ok (vdiv out (vsub ce cs)) else Ok out) ;;
  out <- (if keep_missing then cs <- counts_before ;;
            Ok (if vltb (vsub ce cs) (fz (iend - (start - 1))) then MV else out)
          else Ok out) ;;
  Ok (if missing_edges then
        if before then (if x <? length - 1 then MV else out)
        else (if (x <? Z.quot length 2) || (zlen row <? x + Z.quot length 2 + 1) then MV else out)
      else out).
(** window.cpp:112-152, one output value.  The copy loop 134-138 fills stat_array and counts the missing values. *)
Definition slow_cell (E : ext) (nX length : Z) (statistic : statistic) (before keep_missing missing_edges : bool)
    (row : vec) (x : Z) : res val :=
  let start0 := if before then x - length + 1 else x - Z.quot length 2 in
  let end0 := if before then x else x + Z.quot length 2 in
  let outside := (start0 <? 0) || (nX - 1 <? end0) in
  let start := if start0 <? 0 then 0 else start0 in
  let iend := if nX - 1 <? end0 then nX - 1 else end0 in
  if iend - start + 1 <? 0 then Throw LengthError else
  stat_array <- mapM (fun i => znth row i) (zrange start (iend + 1)) ;;
  let count_missing := zlen (filter (fun v => negb (is_valid v)) stat_array) in
  if keep_missing && (0 <? count_missing) then Ok MV
  else if missing_edges && outside then Ok MV
  else calc_statistic E stat_array statistic.
Definition is_fast (st : statistic) : bool := stat_eqb st Mean || stat_eqb st Sum || stat_eqb st Count.
Definition window_gen (oob : res val) (E : ext) (array : vec2) (length : Z) (statistic : statistic)
    (before keep_missing missing_edges : bool) : res vec2 :=
  if length <=? 0 then Throw InvalidArgument else
  let nY := zlen array in
  if nY =? 0 then Ok [] else
  a0 <- znth array 0 ;;
  let nX := zlen a0 in
  if nX =? 0 then Ok (init2 nY 0 (fz 0)) else
  if (Z.rem length 2 =? 0) && negb before then Throw InvalidArgument else
  omp (foldM (fun out y =>
    row <- znth array y ;;
    if is_fast statistic then
      ' (values, counts) <- accumulate row ;;
      foldM (fun out x => v <- fast_cell oob nX length statistic before keep_missing missing_edges row values counts x ;;
                          set2 out y x v) out (zrange 0 (zlen row))
    else
      foldM (fun out x => v <- slow_cell E nX length statistic before keep_missing missing_edges row x ;;
                          set2 out y x v) out (zrange 0 (zlen row))) (init2 nY nX MV) (zrange 0 nY)).
(** reading counts[-1] is undefined *)
Definition window := window_gen UB.
