(** Model of calibrators of the client: src/client/Calibrator/*.cpp.  A variable of a file is the list of its fields, one for each time
    (File::getField returns shared pointers to them); the file has nY x nX x nE elements for each time.  The loops over y, x and e visit
    the elements in the order of [cells]; iterations of the parallel loops touch different elements.  A calibrator returns the fields
    that the file holds for its variable afterwards.  Simplifications: the variables named in the options differ from the calibrated one
    (except where said otherwise), and options are given as numbers. *)
From Verif Require Import Base M_Stat M_COpt M_CUtil.
Local Open Scope Z_scope.

Definition cells (nY nX nE : Z) : list (Z * Z * Z) :=
  flat_map (fun y => flat_map (fun x => map (fun e => (y, x, e)) (zrange 0 nE)) (zrange 0 nX)) (zrange 0 nY).
Record dims := { d_y : Z; d_x : Z; d_e : Z; d_t : Z }.
Definition for3 {S} (d : dims) (s : S) (body : S -> Z -> Z -> Z -> res S) : res S :=
  foldM (fun s c => let '(y, x, e) := c in body s y x e) s (cells (d_y d) (d_x d) (d_e d)).
Definition empty_field (d : dims) : res field := new_field (d_y d) (d_x d) (d_e d) CMV.
Definition get4 (fs : list field) (t y x e : Z) : res val := f <- znth fs t ;; f_get f y x e.
(** for each time, the fields one after the other *)
Definition each_time (d : dims) (body : Z -> res field) : res (list field) := mapM body (zrange 0 (d_t d)).

(** Accumulate.cpp:8-47 *)
Definition accumulate (d : dims) (fields : list field) : res (list field) :=
  foldM (fun acc t =>
    f <- empty_field d ;;
    f <- for3 d f (fun f y x e =>
      if t =? 0 then f_set f y x e (fz 0)
      else
        previous <- get4 acc (t - 1) y x e ;; current <- get4 fields t y x e ;;
        f_set f y x e (if cvalid current && cvalid previous then vadd current previous else CMV)) ;;
    Ok (acc ++ [f])) [] (zrange 0 (d_t d)).
(** Deaccumulate.cpp:10-49 *)
Definition deaccumulate (window : Z) (d : dims) (acc : list field) : res (list field) :=
  each_time d (fun t =>
    f <- empty_field d ;;
    for3 d f (fun f y x e =>
      if t <? window then f_set f y x e CMV
      else
        previous <- get4 acc (t - window) y x e ;; current <- get4 acc t y x e ;;
        f_set f y x e (if cvalid current && cvalid previous then vsub current previous else CMV))).
(** Sort.cpp:27-42: the members of one point; std::sort of values that contain NaN is undefined *)
Definition sorted_members (nEns : Z) (values : vec) : res vec :=
  s <- std_sort values ;;
  '(missingLast, _) <- foldM (fun st e => let '(l, counter) := st in
      v <- znth s e ;; if cvalid v then l <- zset l counter v ;; Ok (l, counter + 1) else Ok (l, counter)) (init1 nEns CMV, 0) (zrange 0 nEns) ;;
  Ok missingLast.
(** Sort.cpp:11-47 *)
Definition sort_calibrator (d : dims) (fields : list field) : res (list field) :=
  each_time d (fun t =>
    f <- znth fields t ;;
    foldM (fun f c => let '(i, j) := c in
      values <- f_ens f i j ;;
      missingLast <- sorted_members (d_e d) values ;;
      foldM (fun f e => v <- znth missingLast e ;; f_set f i j e v) f (zrange 0 (d_e d)))
      f (flat_map (fun i => map (fun j => (i, j)) (zrange 0 (d_x d))) (zrange 0 (d_y d)))).
(** Threshold.cpp:42-51: the index of the value *)
Fixpoint threshold_index (value : val) (p : Z) (thresholds : vec) (equals : list Z) : res Z :=
  match thresholds with
  | [] => Ok p
  | thr :: t =>
      if vltb value thr then Ok p
      else if veqb value thr then
        (match equals with e :: es => if e =? 1 then Ok p else threshold_index value (p + 1) t es | [] => UB end)
      else threshold_index value (p + 1) t (tl equals)
  end.
(** Threshold.cpp:7-58 *)
Definition threshold_calibrator (thresholds values : vec) (equals : option (list Z)) (d : dims) (fields : list field) : res (list field) :=
  let equals := match equals with Some l => l | None => init1 (zlen thresholds) 0 end in
  if negb (zlen values =? zlen thresholds + 1) then Abort else
  if negb (zlen equals =? zlen thresholds) then Abort else
  each_time d (fun t =>
    f <- znth fields t ;;
    for3 d f (fun f y x e =>
      value <- f_get f y x e ;;
      if cvalid value then p <- threshold_index value 0 thresholds equals ;; v <- znth values p ;; f_set f y x e v else Ok f)).
(** Qc.cpp:18-46; the bounds are -999 when not given *)
Definition qc_value (mMin mMax value : val) : val :=
  if cvalid mMin && vltb value mMin then mMin else if cvalid mMax && vltb mMax value then mMax else value.
Definition qc_calibrator (mMin mMax : val) (d : dims) (fields : list field) : res (list field) :=
  each_time d (fun t =>
    f <- znth fields t ;;
    for3 d f (fun f i j e => value <- f_get f i j e ;; if cvalid value then f_set f i j e (qc_value mMin mMax value) else Ok f)).
(** Cloud.cpp:12-46 *)
Definition cloud_calibrator (mValue : val) (d : dims) (precips clouds : list field) : res (list field) :=
  each_time d (fun t =>
    f <- znth clouds t ;;
    for3 d f (fun f i j e =>
      currPrecip <- get4 precips t i j e ;; currCloud <- f_get f i j e ;;
      if cvalid currPrecip && cvalid currCloud then
        f <- f_set f i j e currCloud ;;
        if vltb (fz 0) currPrecip && vltb currCloud mValue then f_set f i j e mValue else Ok f
      else Ok f)).
(** Phase.cpp:18-62; Phase.h: none 0, rain 1, sleet 2, snow 3.  The limit 0.2 is a float constant in the code, and an argument here. *)
Definition phase_value (minPrecip snow rain temp precip : val) : val :=
  if cvalid temp && cvalid precip then
    if vleb precip minPrecip then fz 0 else if vleb temp snow then fz 3 else if vleb temp rain then fz 2 else fz 1
  else CMV.
Definition phase_calibrator (minPrecip snow rain : val) (d : dims) (temps precips phases : list field) : res (list field) :=
  each_time d (fun t =>
    f <- znth phases t ;;
    for3 d f (fun f i j e =>
      temp <- get4 temps t i j e ;; precip <- get4 precips t i j e ;; f_set f i j e (phase_value minPrecip snow rain temp precip))).
(** Window.cpp:72-79 *)
Definition window_bounds (length : Z) (before : bool) (nTime t : Z) : Z * Z :=
  let b := Z.quot (length - 1) 2 in
  let a := length - b - 1 in
  if before then (Z.max 0 (t - (length - 1)), Z.min (nTime - 1) t) else (Z.max 0 (t - b), Z.min (nTime - 1) (t + a)).
(** Window.cpp:4-105; the constructor's checks come first *)
Definition window_calibrator (E : ext) (length : Z) (before edgeMissing keepMissing : bool) (st : cstat) (quantile : val) (d : dims) (fields : list field) : res (list field) :=
  if length <? 1 then Abort else
  if (match st with CQuantile => negb (cvalid quantile) || vltb quantile (fz 0) || vltb (fz 1) quantile | _ => false end) then Abort else
  each_time d (fun t =>
    f <- empty_field d ;;
    for3 d f (fun f i j e =>
      let '(start, last) := window_bounds length before (d_t d) t in
      _ <- assert_ (last - start + 1 <=? length) ;;
      if edgeMissing && negb (last - start + 1 =? length) then f_set f i j e CMV
      else
        '(window, _, numMissing) <- foldM (fun st tt => let '(w, index, missing) := st in
            curr <- get4 fields tt i j e ;; w <- zset w index curr ;; Ok (w, index + 1, missing || negb (cvalid curr)))
          (init1 length CMV, 0, false) (zrange start (last + 1)) ;;
        if keepMissing && numMissing then f_set f i j e CMV
        else v <- calculate_stat E window st quantile ;; f_set f i j e v)).
(** Calibrator::shuffle, Calibrator.cpp:105-130; [sort_pairs] is what std::sort makes of the pairs, in any order of those with equal first components *)
Definition shuffle (sort_pairs : list (val * Z) -> list (val * Z)) (before after : vec) : res vec :=
  if negb (zlen before =? zlen after) then Ok after else
  if zlen before =? 0 then Ok after else
  if negb (forallb cvalid before && forallb cvalid after) then Ok after else
  let pairs := sort_pairs (combine before (zrange 0 (zlen before))) in
  copy <- std_sort after ;;
  foldM (fun l e => p <- znth pairs e ;; v <- znth copy e ;; zset l (snd p) v) after (zrange 0 (zlen before)).
