(** Property theorems C15-C21 and C25: neighbourhood filters. *)
From Verif Require Import Base M_Stat M_Neigh S_Stat S_Neigh P_NeighAll P_NeighMore P_NeighSafe.

(** C15 *)
Theorem C15_fast_sums_equal_brute_force E input nY nX h st :
  rect nY nX input -> 0 < nY -> 0 < nX -> 0 <= h -> st = Mean \/ st = Sum \/ st = Count ->
  exists out, neighbourhood E input h st = Ok out /\ neighbourhood_brute_force E input h st = Ok out /\
    filtered nY nX (fun y x => stat_of E st (finites (around input h y x))) out.
Proof. exact (c15_all E input nY nX h st). Qed.
Print Assumptions C15_fast_sums_equal_brute_force.
Example C15_example : rect 2 3 [[fz 1; NaN; fz 3]; [fz 4; fz 5; PInf]] /\
  neighbourhood E0 [[fz 1; NaN; fz 3]; [fz 4; fz 5; PInf]] 1 Mean = Ok [[fq (10#3); fq (13#4); fz 4]; [fq (10#3); fq (13#4); fz 4]].
Proof. split; [split; [reflexivity|intros r [<-|[<-|[]]]; reflexivity]|vcalc]. Qed.

(** C16 *)
Theorem C16_fast_min_max_equal_brute_force E input nY nX h st :
  rect nY nX input -> 0 < nY -> 0 < nX -> 0 <= h -> st = Min \/ st = Max ->
  exists out, neighbourhood E input h st = Ok out /\ neighbourhood_brute_force E input h st = Ok out /\
    filtered nY nX (fun y x => stat_of E st (finites (around input h y x))) out.
Proof. exact (c16_all E input nY nX h st). Qed.
Print Assumptions C16_fast_min_max_equal_brute_force.
Example C16_example : rect 3 2 [[fz 1; NaN]; [fz 4; fz 5]; [NaN; NaN]] /\
  neighbourhood E0 [[fz 1; NaN]; [fz 4; fz 5]; [NaN; NaN]] 1 Max = Ok [[fz 5; fz 5]; [fz 5; fz 5]; [fz 5; fz 5]].
Proof. split; [split; [reflexivity|intros r [<-|[<-|[<-|[]]]]; reflexivity]|vcalc]. Qed.

(** C17 *)
Theorem C17_fast_variance_equals_brute_force E input nY nX h :
  rect nY nX input -> 0 < nY -> 0 < nX -> 0 <= h ->
  (forall st, st = Variance \/ st = Std ->
   exists out, neighbourhood E input h st = Ok out /\ neighbourhood_brute_force E input h st = Ok out /\
     filtered nY nX (fun y x => stat_of E st (finites (around input h y x))) out) /\
  (exists out, neighbourhood E input h Variance = Ok out /\
     filtered nY nX (fun y x v => v = MV \/ exists q, v = Fin q /\ (0 <= q)%Qc) out).
Proof. exact (c17_all E input nY nX h). Qed.
Print Assumptions C17_fast_variance_equals_brute_force.
Example C17_example : rect 1 3 [[fz 1; NaN; fz 3]] /\
  neighbourhood E0 [[fz 1; NaN; fz 3]] 1 Variance = Ok [[fz 0; fz 1; fz 0]].
Proof. split; [split; [reflexivity|intros r [<-|[]]; reflexivity]|vcalc]. Qed.

(** C18 *)
Theorem C18_filters_preserve_shape_constants_bounds E input nY nX h :
  rect nY nX input -> 0 < nY -> 0 < nX -> 0 <= h ->
  (forall st, stat_listed st -> exists out, neighbourhood E input h st = Ok out /\ rect nY nX out) /\
  (forall st, st = Mean \/ st = Min \/ st = Max \/ st = Median -> exists out, neighbourhood E input h st = Ok out /\
     filtered nY nX (fun y x => within (finites (around input h y x))) out) /\
  (forall q, (0 <= q <= 1)%Qc -> exists out, neighbourhood_quantile E input (Fin q) h = Ok out /\
     filtered nY nX (fun y x => within (finites (around input h y x))) out) /\
  (forall st, st = Mean \/ st = Min \/ st = Max \/ st = Median \/ st = Sum -> neighbourhood E input 0 st = Ok (map (map norm) input)) /\
  (forall q, (0 <= q <= 1)%Qc -> neighbourhood_quantile E input (Fin q) 0 = Ok (map (map norm) input)) /\
  (nY - 1 <= h -> nX - 1 <= h -> forall st, stat_listed st -> exists out v, neighbourhood E input h st = Ok out /\
     stat_of E st (finites (concat input)) v /\ filtered nY nX (fun _ _ r => r = v) out) /\
  (nY - 1 <= h -> nX - 1 <= h -> forall q, (0 <= q <= 1)%Qc -> exists out v, neighbourhood_quantile E input (Fin q) h = Ok out /\
     quantile_of q (finites (concat input)) v /\ filtered nY nX (fun _ _ r => r = v) out).
Proof. exact (c18_all E input nY nX h). Qed.
Print Assumptions C18_filters_preserve_shape_constants_bounds.
Example C18_example : rect 1 3 [[fz 1; PInf; fz 3]] /\
  neighbourhood E0 [[fz 1; PInf; fz 3]] 0 Median = Ok [[fz 1; NaN; fz 3]] /\
  neighbourhood_quantile E0 [[fz 1; PInf; fz 3]] (fq (1#4)) 2 = Ok [[fq (3#2); fq (3#2); fq (3#2)]].
Proof. split; [split; [reflexivity|intros r [<-|[]]; reflexivity]|split; vcalc]. Qed.

(** C19.  Full statement: for every statistic, neighbourhood(3D) is the statistic over all members of the window.
    Proved for Min, Max and Sum with any missing values, and for Mean when every cell has the same positive number
    of finite members; false otherwise. *)
Theorem C19_ensemble_neighbourhood_partial E input nY nX nE h st :
  rect3 nY nX nE input -> 0 < nY -> 0 < nX -> 0 < nE -> 0 <= h ->
  (st = Min \/ st = Max \/ st = Sum \/
   (st = Mean /\ exists k, 0 < k /\ forall y x m, get2 input y x = Ok m -> zlen (finites m) = k)) ->
  exists out, neighbourhood3 E input h st = Ok out /\ neighbourhood_brute_force3 E input h st = Ok out /\
    filtered nY nX (fun y x => stat_of E st (finites (around3 input h y x))) out.
Proof. exact (c19_partial E input nY nX nE h st). Qed.
Print Assumptions C19_ensemble_neighbourhood_partial.
Example C19_example : neighbourhood3 E0 [[[fz 0; NaN]; [fz 3; fz 6]]] 1 Sum = Ok [[fz 9; fz 9]].
Proof. vcalc. Qed.
Theorem C19_ensemble_neighbourhood_refuted :
  (exists input, rect3 1 2 2 input /\ differs3 Mean input 1) /\
  (exists input, rect3 1 1 2 input /\ differs3 Count input 0) /\
  (exists input, rect3 1 2 3 input /\ differs3 Median input 1) /\
  (exists input, rect3 1 1 2 input /\ differs3 Variance input 0).
Proof. exact c19_refuted. Qed.
Print Assumptions C19_ensemble_neighbourhood_refuted.

(** C20.  Full statement: no overload has undefined behaviour on a rectangular, possibly empty, field.  Proved for
    all overloads except neighbourhood(3D) on fields without cells, where it is false. *)
Theorem C20_rectangular_inputs_safe_partial :
  (forall E input nY nX h st q, 0 <= ext_rand E -> rect nY nX input ->
     neighbourhood E input h st <> UB /\ neighbourhood_brute_force E input h st <> UB /\ neighbourhood_quantile E input q h <> UB) /\
  (forall E input nY nX nE h st q, 0 <= ext_rand E -> rect3 nY nX nE input ->
     neighbourhood_brute_force3 E input h st <> UB /\ neighbourhood_quantile3 E input q h <> UB /\
     (0 < nY -> 0 < nX -> neighbourhood3 E input h st <> UB)) /\
  (forall E input h st q, 0 <= h -> empty2 input ->
     (st <> Quantile -> neighbourhood E input h st = Ok []) /\
     neighbourhood_brute_force E input h st = Ok [] /\ neighbourhood_quantile E input q h = Ok []) /\
  (forall E input h st q, 0 <= h -> empty3 input ->
     neighbourhood_brute_force3 E input h st = Ok [] /\ neighbourhood_quantile3 E input q h = Ok []).
Proof. exact c20_partial. Qed.
Print Assumptions C20_rectangular_inputs_safe_partial.
Example C20_example : rect 2 0 (@nil val :: [[]]) /\ neighbourhood E0 [[]; []] 3 Mean = Ok [] /\
  neighbourhood E0 [[fz 1]] 0 RandomChoice = Ok [[fz 1]].
Proof. split; [split; [reflexivity|intros r [<-|[<-|[]]]; reflexivity]|split; vcalc]. Qed.
Theorem C20_rectangular_inputs_safe_refuted :
  exists input nY nX nE, rect3 nY nX nE input /\ forall E h st, neighbourhood3 E input h st = UB.
Proof. exact c20_refuted. Qed.
Print Assumptions C20_rectangular_inputs_safe_refuted.

(** C21.  Full statement: bad halfwidths and levels give a catchable invalid_argument.  Proved for halfwidths; for
    levels it is false: the exception leaves an OpenMP region and the program terminates, for every nonempty field. *)
Theorem C21_invalid_arguments_throw_partial E h : h < 0 ->
  (forall input st, neighbourhood E input h st = Throw InvalidArgument) /\
  (forall input st, neighbourhood_brute_force E input h st = Throw InvalidArgument) /\
  (forall input q, neighbourhood_quantile E input q h = Throw InvalidArgument) /\
  (forall input st, neighbourhood_brute_force3 E input h st = Throw InvalidArgument) /\
  (forall input q, neighbourhood_quantile3 E input q h = Throw InvalidArgument) /\
  (forall input nY nX nE st, rect3 nY nX nE input -> 0 < nY -> 0 < nX -> stat_listed st -> neighbourhood3 E input h st = Throw InvalidArgument).
Proof. exact (c21_partial E h). Qed.
Print Assumptions C21_invalid_arguments_throw_partial.
Example C21_example : neighbourhood E0 [[fz 1]] (-1) Mean = Throw InvalidArgument.
Proof. reflexivity. Qed.
Theorem C21_invalid_arguments_throw_refuted :
  exists E input q h, rect 1 1 input /\ 0 <= h /\ (1 < q)%Qc /\ neighbourhood_quantile E input (Fin q) h = Abort.
Proof. exact c21_refuted_witness. Qed.
Print Assumptions C21_invalid_arguments_throw_refuted.
Theorem C21_bad_level_terminates E input nY nX h q : rect nY nX input -> 0 < nY -> 0 < nX -> 0 <= h -> (q < 0)%Qc \/ (1 < q)%Qc ->
  neighbourhood_quantile E input (Fin q) h = Abort.
Proof. exact (c21_refuted E input nY nX h q). Qed.
Print Assumptions C21_bad_level_terminates.

(** C25 *)
Theorem C25_thresholds_sorted_values_of_field :
  (forall input nY nX num, rect nY nX input -> 0 < num ->
     thresholds_ok (finites (concat input)) num (get_neighbourhood_thresholds input num)) /\
  (forall input nY nX nE num, rect3 nY nX nE input -> 0 < num ->
     thresholds_ok (finites (concat (concat input))) num (get_neighbourhood_thresholds3 input num)) /\
  (forall input num, num <= 0 -> get_neighbourhood_thresholds input num = Throw InvalidArgument) /\
  (forall input num, num <= 0 -> get_neighbourhood_thresholds3 input num = Throw InvalidArgument).
Proof. exact c25_all. Qed.
Print Assumptions C25_thresholds_sorted_values_of_field.
Example C25_example : get_neighbourhood_thresholds [[fz 4; NaN]; [fz 1; fz 7]; [fz 2; fz 9]] 3 = Ok [fz 1; fz 4; fz 9].
Proof. vcalc. Qed.
