(** Model of calc_statistic, calc_quantile, calc_even_quantiles (src/api/util.cpp:19-215, 261-338). *)
From Verif Require Import Base.
From Coq Require Import Qround.

(** std::sort on floats (called at util.cpp:149, 268).  NaN breaks the strict weak ordering std::sort requires, so
    a list of two or more elements holding a NaN is UB.  Otherwise the outcome is the sorted list. *)
Fixpoint vinsert (x : val) (l : vec) : vec :=
  match l with [] => [x] | y :: t => if vleb x y then x :: l else y :: vinsert x t end.
Definition visort (l : vec) : vec := fold_right vinsert [] l.
Definition is_nan (v : val) : bool := match v with NaN => true | _ => false end.
Definition std_sort (l : vec) : res vec :=
  if (2 <=? zlen l) && existsb is_nan l then UB else Ok (visort l).

(** util.cpp:23-30 and 41-56: loops accumulating over the valid elements *)
Definition sum_step (s : val * Z) (v : val) : val * Z :=
  if is_valid v then (vadd (fst s) v, snd s + 1) else s.
(** state: total, total2, K, count *)
Definition var_step (s : val * val * val * Z) (v : val) : val * val * val * Z :=
  let '(total, total2, K, count) := s in
  if is_valid v then
    let K := if is_valid K then K else v in
    (vadd total (vsub v K), vadd total2 (vmul (vsub v K) (vsub v K)), K, count + 1)
  else s.

(** calc_quantile, util.cpp:111-178.  The min/max loops are 121-132 and 135-146. *)
Definition min_step (m v : val) : val :=
  if negb (is_valid v) then m else if negb (is_valid m) then v else if vltb v m then v else m.
Definition max_step (m v : val) : val :=
  if negb (is_valid v) then m else if negb (is_valid m) then v else if vltb m v then v else m.
Definition calc_quantile (array : vec) (quantile : val) : res val :=
  if vltb quantile (fz 0) || vltb (fz 1) quantile then Throw InvalidArgument
  else match quantile with
  | Fin q =>
    if zlen array =? 0 then Ok MV
    else if qeqb q 0 then Ok (fold_left min_step array MV)
    else if qeqb q 1 then Ok (fold_left max_step array MV)
    else
      let cleanHood := filter is_valid array in
      let N := zlen cleanHood in
      if 0 <? N then
        sorted <- std_sort cleanHood ;;
        let lowerIndex := Qfloor (q * qz (N - 1))%Qc in
        let upperIndex := Qceiling (q * qz (N - 1))%Qc in
        let lowerQuantile := vdiv (fz lowerIndex) (fz (N - 1)) in
        let upperQuantile := vdiv (fz upperIndex) (fz (N - 1)) in
        lowerValue <- znth sorted lowerIndex ;;
        upperValue <- znth sorted upperIndex ;;
        if lowerIndex =? upperIndex then Ok lowerValue
        else
          let f := vdiv (vsub quantile lowerQuantile) (vsub upperQuantile lowerQuantile) in
          Ok (vadd lowerValue (vmul (vsub upperValue lowerValue) f))
      else Ok MV
  | _ => Ok MV
  end.

(** calc_statistic, util.cpp:19-110.  rand() is one draw [ext_rand]; sqrt is [ext_sqrt]. *)
Definition calc_statistic (E : ext) (array : vec) (statistic : statistic) : res val :=
  match statistic with
  | Mean | Sum | Count =>
    let '(total, count) := fold_left sum_step array (fz 0, 0) in
    if stat_eqb statistic Count then Ok (fz count)
    else if 0 <? count then
      (if stat_eqb statistic Mean then Ok (vdiv total (fz count)) else Ok total)
    else Ok MV
  | Std | Variance =>
    let '(total, total2, _, count) := fold_left var_step array (fz 0, fz 0, MV, 0) in
    if 0 <? count then
      let mean := vdiv total (fz count) in
      let mean2 := vdiv total2 (fz count) in
      let var := vsub mean2 (vmul mean mean) in
      let var := if vltb var (fz 0) then fz 0 else var in
      Ok (if stat_eqb statistic Std then vsqrt E var else var)
    else Ok MV
  | RandomChoice =>
    let valid := filter is_valid array in
    if 0 <? zlen valid then znth valid (Z.rem (ext_rand E) (zlen valid)) else Ok MV
  | Min => calc_quantile array (fz 0)
  | Median => calc_quantile array (fq (1#2))
  | Max => calc_quantile array (fz 1)
  | Quantile | Unknown => Throw RuntimeError
  end.

(** util.cpp:179-186, 209-216 *)
Definition calc_quantile_vec2 (array : vec2) (quantile : val) : res vec :=
  let N := zlen array in
  for1 N (init1 N (fz 0)) (fun n => row <- znth array n ;; calc_quantile row quantile).
Definition calc_statistic_vec2 (E : ext) (array : vec2) (statistic : statistic) : res vec :=
  let N := zlen array in
  for1 N (init1 N (fz 0)) (fun n => row <- znth array n ;; calc_statistic E row statistic).
(** compatible_size(vec2, vec3), util.cpp:449-464 *)
Definition compatible_size_23 (a : vec2) (b : vec3) : res bool :=
  if (zlen a =? 0) && (zlen b =? 0) then Ok true
  else if negb (zlen a =? zlen b) then Ok false
  else a0 <- znth a 0 ;; b0 <- znth b 0 ;; Ok (zlen a0 =? zlen b0).
(** util.cpp:187-208 *)
Definition calc_quantile_vec3 (array : vec3) (quantile : vec2) : res vec2 :=
  c <- compatible_size_23 quantile array ;;
  if negb c then Throw InvalidArgument else
  if zlen array =? 0 then Ok [] else
  a0 <- znth array 0 ;;
  if zlen a0 =? 0 then Ok [] else
  a00 <- znth a0 0 ;;
  if zlen a00 =? 0 then Ok (init2 (zlen array) (zlen a0) MV) else
  for2 (zlen array) (zlen a0) (init2 (zlen array) (zlen a0) MV) (fun y x => a <- get2 array y x ;; q <- get2 quantile y x ;; calc_quantile a q).

(** calc_even_quantiles, util.cpp:261-338 *)
(** 275-278: for i >= 1, push sorted[i] if it differs from sorted[i-1] *)
Fixpoint push_changes (prev : val) (l : vec) : vec :=
  match l with
  | [] => []
  | x :: t => if veqb x prev then push_changes x t else x :: push_changes x t
  end.
(** 289-293: length of the leading run equal to [lowest] *)
Fixpoint leading_run (lowest : val) (l : vec) : Z :=
  match l with [] => 0 | x :: t => if veqb x lowest then 1 + leading_run lowest t else 0 end.
(** 314-317: values above [last_added], without repetition of the previously pushed one *)
Fixpoint remaining_unique (last_added : val) (prev : option val) (l : vec) : vec :=
  match l with
  | [] => []
  | x :: t =>
    if vltb last_added x && (match prev with None => true | Some p => negb (veqb x p) end)
    then x :: remaining_unique last_added (Some x) t
    else remaining_unique last_added prev t
  end.
Definition calc_even_quantiles (values : vec) (num : Z) : res vec :=
  let size := zlen values in
  if (num =? 0) || (size =? 0) then Ok [] else
  sorted <- std_sort values ;;
  if size <=? num then
    s0 <- znth sorted 0 ;; Ok (s0 :: push_changes s0 (tl sorted))
  else
  lowest <- znth sorted 0 ;;
  highest <- znth sorted (size - 1) ;;
  let count_lower := leading_run lowest sorted in
  if num <? 0 then Throw LengthError else (* quantiles.reserve(num) with num converted to size_t *)
  if num =? 2 then Ok (if veqb lowest highest then [lowest] else [lowest; highest]) else
  let repeated_at_beginning := (count_lower <? size) && (Z.quot size num <? count_lower) in
  quantiles <- (if repeated_at_beginning then c <- znth sorted count_lower ;; Ok [lowest; c] else Ok [lowest]) ;;
  last_added <- znth quantiles (zlen quantiles - 1) ;;
  let remaining := remaining_unique last_added None sorted in
  if 0 <? zlen remaining then
    let num_left := num - zlen quantiles in
    rest <- mapM (fun i =>
      let f := vdiv (fz i) (fz num_left) in
      index <- to_int (vsub (vmul (fz (zlen remaining)) f) (fz 1)) ;;
      if 0 <=? index then znth remaining index else Throw RuntimeError) (zrange 1 (num_left + 1)) ;;
    Ok (quantiles ++ rest)
  else Ok quantiles.
