(** Model of get_optimal_threshold and metric_optimizer_curve, src/api/metric_optimizer.cpp:29-181; gamma_inv,
    src/api/distribution.cpp; get_statistic, src/api/gridpp.cpp:11-44. *)
From Coq Require Import String.
From Verif Require Import Base M_Stat M_Score.
Local Open Scope Z_scope.

(** External code: boost::math::tools::brent_find_minima on a function and an interval, giving the place and the value found. *)
Definition brent := (val -> res val) -> val -> val -> res (val * val).

(** Data::min and Data::max, metric_optimizer.cpp:34-45 *)
Definition data_step (fcst : vec) (s : val * val) (i : Z) : res (val * val) :=
  let '(mn, mx) := s in
  f <- znth fcst i ;;
  let mn := if negb (is_valid mn) || vltb f mn then f else mn in
  let mx := if negb (is_valid mx) || vltb mx f then f else mx in
  Ok (mn, mx).
Definition data_range (ref fcst : vec) : res (val * val) := foldM (data_step fcst) (MV, MV) (zrange 0 (zlen ref)).
(** Score_func::operator(), metric_optimizer.cpp:71-77. Simplification: doubles and floats are exact. *)
Definition score_func (ref fcst : vec) (threshold : val) (m : metric) (x : val) : res val :=
  s <- calc_score_vec ref fcst threshold x m ;; Ok (vneg s).
(** bins[b], metric_optimizer.cpp:149-150, B = 10 *)
Definition bin (mn mx : val) (b : Z) : val := if b =? 0 then mn else vadd mn (vmul (vdiv (vsub mx mn) (fz 9)) (fz b)).
(** metric_optimizer.cpp:129-181 without the disabled branch remove_uncertain *)
Definition get_optimal_threshold (B : brent) (ref fcst : vec) (threshold : val) (m : metric) : res val :=
  '(mn, mx) <- data_range ref fcst ;;
  let func := score_func ref fcst threshold m in
  v0 <- func mn ;;
  '(min_index, _) <- foldM (fun '(mi, mv) b => c <- func (bin mn mx b) ;; if vltb c mv then Ok (b, c) else Ok (mi, mv)) (0, v0) (zrange 1 10) ;;
  let left_index := if 0 <? min_index then min_index - 1 else 0 in
  let right_index := if min_index <? 9 then min_index + 1 else 9 in
  '(x0, r2) <- B func (bin mn mx left_index) (bin mn mx right_index) ;;
  let score := vneg r2 in
  let x := if negb (is_valid score) then MV else x0 in
  let x := if vleb score (fq (1 # 10000)) then MV else x in
  n0 <- func mn ;;
  n1 <- func mx ;;
  let s0 := vneg n0 in
  let s1 := vneg n1 in
  Ok (if vltb (vabs (vsub r2 s0)) (fq (1 # 1000)) || vltb (vabs (vsub r2 s1)) (fq (1 # 1000)) then MV else x).
(** metric_optimizer.cpp:103-127; the result is (returned vector, output_fcst) *)
Definition metric_optimizer_curve (B : brent) (ref fcst thresholds : vec) (m : metric) : res (vec * vec) :=
  if negb (zlen ref =? zlen fcst) then Throw InvalidArgument else
  foldM (fun '(oref, ofcst) t => value <- get_optimal_threshold B ref fcst t m ;;
     if is_valid value then Ok (oref ++ [value], ofcst ++ [t]) else Ok (oref, ofcst)) ([], []) thresholds.

(** gamma_inv, distribution.cpp:5-33; [q] is boost's quantile of the gamma distribution with the given shape and scale,
    called within a parallel loop *)
Definition gamma_check (levels shape scale : vec) (i : Z) : res unit :=
  l <- znth levels i ;;
  if vltb l (fz 0) || vltb (fz 1) l || negb (is_valid l) then Throw InvalidArgument else
  sh <- znth shape i ;;
  if vleb sh (fz 0) || negb (is_valid sh) then Throw InvalidArgument else
  sc <- znth scale i ;;
  if vleb sc (fz 0) || negb (is_valid sc) then Throw InvalidArgument else Ok tt.
Definition gamma_inv (q : val -> val -> val -> res val) (levels shape scale : vec) : res vec :=
  let N := zlen shape in
  _ <- mapM (gamma_check levels shape scale) (zrange 0 N) ;;
  omp (for1 N (init1 N (fz 0)) (fun i => sh <- znth shape i ;; sc <- znth scale i ;; l <- znth levels i ;; q sh sc l)).

(** get_statistic, gridpp.cpp:11-44 *)
Definition get_statistic (name : string) : statistic :=
  if (name =? "mean")%string then Mean
  else if (name =? "min")%string then Min
  else if (name =? "max")%string then Max
  else if (name =? "median")%string then Median
  else if (name =? "quantile")%string then Quantile
  else if (name =? "std")%string then Std
  else if (name =? "sum")%string then Sum
  else if (name =? "count")%string then Count
  else if (name =? "randomchoice")%string then RandomChoice
  else Unknown.
