(** Model of calc_score, src/api/metric_optimizer.cpp:183-246. *)
From Verif Require Import Base.

(** gridpp::Metric, include/gridpp.h:103-110; BadMetric is any other int *)
Inductive metric := Ets | Ts | Kss | Pc | Bias | Hss | BadMetric.
(** metric_optimizer.cpp:207-246 *)
Definition calc_score (a b c d : val) (m : metric) : res val :=
  match m with
  | Ets =>
    let N := vadd (vadd (vadd a b) c) d in
    let ar := vmul (vdiv (vdiv (vadd a b) (fz 1)) N) (vadd a c) in
    let denom := vsub (vadd (vadd a b) c) ar in
    if veqb denom (fz 0) then Ok MV else Ok (vdiv (vdiv (vsub a ar) (fz 1)) denom)
  | Ts => Ok (vdiv (vdiv a (fz 1)) (vadd (vadd a b) c))
  | Pc => let N := vadd (vadd (vadd a b) c) d in Ok (vdiv (vadd a d) N)
  | Kss =>
    let denom := vmul (vadd a c) (vadd b d) in
    if veqb denom (fz 0) then Ok MV else Ok (vdiv (vmul (vsub (vmul a d) (vmul b c)) (fz 1)) denom)
  | Bias => if veqb b c then Ok (fz 1) else Ok (vsub (fz 1) (vdiv (vabs (vsub b c)) (vadd b c)))
  | Hss =>
    let denom := vadd (vmul (vadd a c) (vadd c d)) (vmul (vadd a b) (vadd b d)) in
    if veqb denom (fz 0) then Ok MV else Ok (vdiv (vmul (fz 2) (vsub (vmul a d) (vmul b c))) denom)
  | BadMetric => Throw InvalidArgument
  end.
(** metric_optimizer.cpp:188-204, one iteration on the counters (a, b, c, d).
    Simplification: the float counters are exact integers. *)
Definition score_step (ref fcst : vec) (threshold fthreshold : val) (s : Z * Z * Z * Z) (t : Z) : res (Z * Z * Z * Z) :=
  let '(a, b, c, d) := s in
  f <- znth fcst t ;; r <- znth ref t ;;
  if vltb fthreshold f then
    if vltb threshold r then Ok (a + 1, b, c, d) else if vleb r threshold then Ok (a, b + 1, c, d) else Ok s
  else
    if vltb threshold r then Ok (a, b, c + 1, d) else if vleb r threshold then Ok (a, b, c, d + 1) else Ok s.
(** metric_optimizer.cpp:186-206 *)
Definition calc_score_vec (ref fcst : vec) (threshold fthreshold : val) (m : metric) : res val :=
  s <- foldM (score_step ref fcst threshold fthreshold) (0, 0, 0, 0) (zrange 0 (zlen fcst)) ;;
  let '(a, b, c, d) := s in calc_score (fz a) (fz b) (fz c) (fz d) m.
(** metric_optimizer.cpp:183-185 *)
Definition calc_score_vec1 (ref fcst : vec) (threshold : val) (m : metric) : res val := calc_score_vec ref fcst threshold threshold m.
