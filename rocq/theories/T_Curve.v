(** Property theorems C11 and C27-C34. *)
From Coq Require Import Qround.
From Verif Require Import Base M_Stat M_Interp M_Curve M_TfVec M_Score S_Stat S_Interp S_Curve S_Point S_Score P_Curve P_Mono P_QMap P_Point P_Score.

(** C11 *)
Theorem C11_vector_overloads_pointwise_partial :
  (forall x iX iY out, zlen iX = zlen iY -> (interpolate_vec x iX iY = Ok out <-> pointwise (fun v => interpolate v iX iY) x out)) /\
  (forall fcst ref cf pb pa out, zlen ref = zlen cf -> ref <> [] ->
     (apply_curve_vec fcst ref cf pb pa = Ok out <-> pointwise (fun v => apply_curve v ref cf pb pa) fcst out)) /\
  (forall fcst ref cf pb pa out, zlen ref = zlen cf -> ref <> [] ->
     (apply_curve_vec2 fcst ref cf pb pa = Ok out <-> pointwise2 (fun v => apply_curve v ref cf pb pa) fcst out)) /\
  (forall nY nX nC (fcst out : vec2) (ref cf : vec3) pb pa, 0 < nY -> 0 <= nX -> rect nY nX fcst -> rect3 nY nX nC ref -> rect3 nY nX nC cf ->
     (apply_curve_vec3 fcst ref cf pb pa = Ok out <->
      rect nY nX out /\ forall y x, 0 <= y < nY -> 0 <= x < nX ->
        exists v r c w, get2 fcst y x = Ok v /\ get2 ref y x = Ok r /\ get2 cf y x = Ok c /\ get2 out y x = Ok w /\ apply_curve v r c pb pa = Ok w)) /\
  (forall array q out, calc_quantile_vec2 array q = Ok out <-> pointwise (fun row => calc_quantile row q) array out) /\
  (forall E array st out, st <> RandomChoice -> (calc_statistic_vec2 E array st = Ok out <-> pointwise (fun row => calc_statistic E row st) array out)) /\
  (forall nY nX nE (array : vec3) (q out : vec2), 0 < nY -> 0 < nX -> 0 < nE -> rect3 nY nX nE array -> rect nY nX q ->
     (calc_quantile_vec3 array q = Ok out <->
      rect nY nX out /\ forall y x, 0 <= y < nY -> 0 <= x < nX ->
        exists a l w, get2 array y x = Ok a /\ get2 q y x = Ok l /\ get2 out y x = Ok w /\ calc_quantile a l = Ok w)) /\
  (forall (A : Type) (mv : A) (f : A -> A), (forall l, tf_vec mv f l = Ok (map f l)) /\ (forall l, tf_vec2 mv f l = Ok (map (map f) l)) /\ (forall l, tf_vec3 mv f l = Ok (map (map (map f)) l))).
Proof. exact c11_partial. Qed.
Print Assumptions C11_vector_overloads_pointwise_partial.
Example C11_example :
  interpolate_vec [fz 1; NaN] [fz 0; fz 2] [fz 0; fz 4] = Ok [fz 2; NaN] /\
  apply_curve_vec2 [[fz 1]; []] [fz 0; fz 4] [fz 0; fz 2] Zero Zero = Ok [[fz 2]; []] /\
  apply_curve_vec3 [[fz 1]] [[[fz 0; fz 4]]] [[[fz 0; fz 2]]] Zero Zero = Ok [[fz 2]] /\
  calc_quantile_vec3 [[[fz 3; fz 5]]] [[fq (1#2)]] = Ok [[fz 4]] /\
  tf_vec3 MV (fun v => vadd v (fz 1)) [[[fz 3]; [fz 5; NaN]]; []] = Ok [[[fz 4]; [fz 6; NaN]]; []].
Proof. repeat split; vcalc. Qed.
Theorem C11_vector_overloads_pointwise_refuted :
  (exists array q, rect3 2 0 0 array /\ rect 2 0 q /\ calc_quantile_vec3 array q = Ok [] /\ zlen array <> zlen (@nil vec)) /\
  apply_curve_vec3 [] [] [] OneToOne OneToOne = UB.
Proof. exact c11_refuted. Qed.
Print Assumptions C11_vector_overloads_pointwise_refuted.

(** C27 *)
Theorem C27_apply_curve X Y pb pa : qsorted X -> X <> [] -> zlen X = zlen Y ->
  (forall x, ((x < qnth X 0)%Qc -> slope_defined pb X true) -> ((qnth X (zlen X - 1) < x)%Qc -> slope_defined pa X false) ->
     exists r, apply_curve (Fin x) (map Fin Y) (map Fin X) pb pa = Ok (Fin r) /\ curve_value X Y pb pa x r) /\
  (slope_defined pb X true -> slope_defined pa X false -> apply_curve MV (map Fin Y) (map Fin X) pb pa = Ok MV) /\
  (slope_defined pb X true -> slope_defined pa X false -> forall v, is_valid v = false ->
     exists r, apply_curve v (map Fin Y) (map Fin X) pb pa = Ok r /\ is_valid r = false) /\
  (forall v ref fcst, zlen ref <> zlen fcst \/ (ref = [] /\ fcst = []) -> apply_curve v ref fcst pb pa = Throw InvalidArgument).
Proof. exact (c27_all X Y pb pa). Qed.
Print Assumptions C27_apply_curve.
Example C27_example : qsorted [qz 1; qz 2; qz 4] /\ slope_defined NearestSlope [qz 1; qz 2; qz 4] true /\
  apply_curve (fz 0) [fz 5; fz 6; fz 9] [fz 1; fz 2; fz 4] NearestSlope MeanSlope = Ok (fz 4) /\
  apply_curve (fz 3) [fz 5; fz 6; fz 9] [fz 1; fz 2; fz 4] NearestSlope MeanSlope = Ok (fq (15#2)) /\
  apply_curve (fz 7) [fz 5; fz 6; fz 9] [fz 1; fz 2; fz 4] NearestSlope MeanSlope = Ok (fz 13).
Proof. split; [repeat constructor; discriminate|]. split; [right; reflexivity|]. repeat split; vcalc. Qed.

(** C28 *)
Theorem C28_apply_curve_preserves_order X Y pb pa x x' : increasing X -> qsorted Y -> X <> [] -> zlen X = zlen Y -> ordinary pb -> ordinary pa -> (x <= x')%Qc ->
  exists r r', apply_curve (Fin x) (map Fin Y) (map Fin X) pb pa = Ok (Fin r) /\ apply_curve (Fin x') (map Fin Y) (map Fin X) pb pa = Ok (Fin r') /\ (r <= r')%Qc.
Proof. exact (c28_all X Y pb pa x x'). Qed.
Print Assumptions C28_apply_curve_preserves_order.
Example C28_example : increasing [qz 1; qz 2] /\ qsorted [qz 3; qz 3] /\ ordinary MeanSlope /\
  apply_curve (fz 0) [fz 3; fz 3] [fz 1; fz 2] MeanSlope OneToOne = Ok (fz 3) /\ apply_curve (fz 4) [fz 3; fz 3] [fz 1; fz 2] MeanSlope OneToOne = Ok (fz 5).
Proof. split; [repeat constructor|]. split; [repeat constructor; discriminate|]. split; [right; left; reflexivity|]. split; vcalc. Qed.

(** C29 *)
Theorem C29_monotonize_curve ref fcst : zlen ref = zlen fcst -> complete_pairs fcst ref <> [] ->
  exists out, monotonize_curve ref fcst = Ok (map (fun p => Fin (snd p)) out, map (fun p => Fin (fst p)) out) /\
    subseq out (complete_pairs fcst ref) /\ increasing (map fst out) /\ below_later out (complete_pairs fcst ref) /\
    (steps_above tol (map fst (complete_pairs fcst ref)) -> out = complete_pairs fcst ref).
Proof. exact (c29_all ref fcst). Qed.
Print Assumptions C29_monotonize_curve.
Example C29_example : complete_pairs [fz 1; fz 3; NaN; fz 2; fz 5] [fz 6; fz 7; fz 8; fz 9; fz 10] <> [] /\
  monotonize_curve [fz 6; fz 7; fz 8; fz 9; fz 10] [fz 1; fz 3; NaN; fz 2; fz 5] = Ok ([fz 6; fz 10], [fz 1; fz 5]) /\
  monotonize_curve [fz 6; fz 7] [fz 1; fz 3] = Ok ([fz 6; fz 7], [fz 1; fz 3]).
Proof. split; [discriminate|]. split; vcalc. Qed.

(** C30 *)
Theorem C30_monotonize_defined_partial ref fcst : zlen ref = zlen fcst -> fcst <> [] -> (monotonize_curve ref fcst = UB <-> complete_pairs fcst ref = []).
Proof. exact (c30_exact ref fcst). Qed.
Print Assumptions C30_monotonize_defined_partial.
Example C30_example : monotonize_curve [fz 6; NaN] [NaN; fz 3] = UB /\ monotonize_curve [fz 6; NaN] [fz 2; fz 3] = Ok ([fz 6], [fz 2]).
Proof. split; vcalc. Qed.
Theorem C30_monotonize_defined_refuted : exists ref fcst, fcst <> [] /\ zlen ref = zlen fcst /\ monotonize_curve ref fcst = UB.
Proof. exact c30_refuted. Qed.
Print Assumptions C30_monotonize_defined_refuted.

(** C31 *)
Theorem C31_quantile_mapping_curve_sorts R F : zlen R = zlen F ->
  (exists R' F', quantile_mapping_curve (map Fin R) (map Fin F) [] = Ok (map Fin R', map Fin F') /\
     Permutation R' R /\ Permutation F' F /\ qsorted R' /\ qsorted F') /\
  (forall R2 F2, Permutation R2 R -> Permutation F2 F -> quantile_mapping_curve (map Fin R2) (map Fin F2) [] = quantile_mapping_curve (map Fin R) (map Fin F) []) /\
  (forall ref fcst levels, zlen ref <> zlen fcst \/ (exists q, In q levels /\ ~ exists l, q = Fin l /\ (0 <= l <= 1)%Qc) -> quantile_mapping_curve ref fcst levels = Throw InvalidArgument).
Proof. exact (c31_all R F). Qed.
Print Assumptions C31_quantile_mapping_curve_sorts.
Example C31_example : quantile_mapping_curve [fz 3; fz 1; fz 2] [fz 5; fz 9; fz 4] [] = Ok ([fz 1; fz 2; fz 3], [fz 4; fz 5; fz 9]) /\
  quantile_mapping_curve [fz 3; fz 1] [fz 5; fz 9] [fz 2] = Throw InvalidArgument.
Proof. split; vcalc. Qed.

(** C32: full statement: with levels the pairs are sample quantiles, whatever the order of the samples *)
Theorem C32_quantile_mapping_levels_partial R F levels : zlen R = zlen F -> 2 <= zlen R -> levels <> [] -> (forall q, In q levels -> (0 <= q <= 1)%Qc) -> qsorted R -> qsorted F ->
  (exists R' F', quantile_mapping_curve (map Fin R) (map Fin F) (map Fin levels) = Ok (map Fin R', map Fin F') /\
     zlen R' = zlen levels /\ zlen F' = zlen levels /\
     forall i, 0 <= i < zlen levels -> qnth R' i = qnth R (Qfloor (qnth levels i * qz (zlen R - 1))%Qc) /\ qnth F' i = qnth F (Qfloor (qnth levels i * qz (zlen F - 1))%Qc) /\
       forall j, 0 <= j < zlen levels -> (qnth levels i <= qnth levels j)%Qc -> (qnth R' i <= qnth R' j)%Qc /\ (qnth F' i <= qnth F' j)%Qc).
Proof. exact (c32_partial R F levels). Qed.
Print Assumptions C32_quantile_mapping_levels_partial.
Example C32_example : quantile_mapping_curve [fz 1; fz 2; fz 3] [fz 4; fz 5; fz 9] [fq (3#4); fz 1] = Ok ([fz 2; fz 3], [fz 5; fz 9]).
Proof. vcalc. Qed.
Theorem C32_quantile_mapping_levels_refuted :
  (exists R F R' F' q, Permutation (combine R F) (combine R' F') /\ (0 <= q <= 1)%Qc /\
    quantile_mapping_curve (map Fin R) (map Fin F) [Fin q] <> quantile_mapping_curve (map Fin R') (map Fin F') [Fin q]) /\
  (exists R F q q', (q <= q')%Qc /\ quantile_mapping_curve (map Fin R) (map Fin F) [Fin q; Fin q'] = Ok ([Fin (qz 2); Fin (qz 1)], [Fin (qz 2); Fin (qz 1)])).
Proof. exact c32_refuted. Qed.
Print Assumptions C32_quantile_mapping_levels_refuted.

(** C33 *)
Theorem C33_scores a b c d m : (0 <= a)%Qc -> (0 <= b)%Qc -> (0 <= c)%Qc -> (0 <= d)%Qc -> (0 < a + b + c + d)%Qc -> m <> BadMetric ->
  (score_den a b c d m = 0%Qc -> calc_score (Fin a) (Fin b) (Fin c) (Fin d) m = Ok (match m with Bias => fz 1 | _ => MV end)) /\
  (score_den a b c d m <> 0%Qc -> exists s, calc_score (Fin a) (Fin b) (Fin c) (Fin d) m = Ok (Fin s) /\
     (s * score_den a b c d m = score_num a b c d m)%Qc /\ (score_lo m <= s <= 1)%Qc) /\
  (b = 0%Qc -> c = 0%Qc -> (0 < a)%Qc -> (0 < d)%Qc -> calc_score (Fin a) (Fin b) (Fin c) (Fin d) m = Ok (Fin 1%Qc)) /\
  (m = Kss \/ m = Hss \/ m = Pc -> calc_score (Fin d) (Fin c) (Fin b) (Fin a) m = calc_score (Fin a) (Fin b) (Fin c) (Fin d) m).
Proof. exact (c33_all a b c d m). Qed.
Print Assumptions C33_scores.
Example C33_example : calc_score (fz 2) (fz 1) (fz 3) (fz 4) Ets = Ok (fq (1#9)) /\ calc_score (fz 2) (fz 1) (fz 3) (fz 4) Bias = Ok (fq (1#2)) /\
  calc_score (fz 0) (fz 0) (fz 0) (fz 4) Kss = Ok MV.
Proof. repeat split; vcalc. Qed.

(** C34 *)
Theorem C34_score_classifies_pairs R F t ft m : length R = length F ->
  let n o f := tally t ft o f (combine R F) in
  calc_score_vec (map Fin R) (map Fin F) (Fin t) (Fin ft) m = calc_score (fz (n true true)) (fz (n false true)) (fz (n true false)) (fz (n false false)) m /\
  n true true + n false true + n true false + n false false = zlen F /\
  (forall R' F', length R' = length F' -> Permutation (combine R F) (combine R' F') ->
     calc_score_vec (map Fin R') (map Fin F') (Fin t) (Fin ft) m = calc_score_vec (map Fin R) (map Fin F) (Fin t) (Fin ft) m) /\
  (forall ft' o, (ft <= ft')%Qc -> tally t ft' o true (combine R F) <= n o true).
Proof. exact (c34_all R F t ft m). Qed.
Print Assumptions C34_score_classifies_pairs.
Example C34_example : calc_score_vec [fz 0; fz 1; fz 2] [fz 0; fz 2; fz 3] (fz 1) (fz 1) Ts = Ok (fq (1#2)) /\ tally (qz 1) (qz 1) false true [(qz 0, qz 0); (qz 1, qz 2)] = 1.
Proof. split; vcalc. Qed.
