(** Property theorems C22 (continued): the argument checks of neighbourhood_quantile_fast for ensembles, and the size of the level field. *)
From Verif Require Import Base M_Stat M_Neigh M_Fast S_Stat S_Neigh S_Fast P_Fast3.

(** C22 *)
Theorem C22_level_field_has_the_size_of_the_input : forall E input quantile q0 nY nX h thr, rect nY nX input -> 0 < nY -> 0 < nX ->
  znth quantile 0 = Ok q0 -> ~ (zlen quantile = 1 /\ zlen q0 = 1) -> ~ (zlen quantile = nY /\ zlen q0 = nX) ->
  quantile_fast2 E input quantile h thr = Throw InvalidArgument.
Proof. exact quantile_fast2_size. Qed.
Print Assumptions C22_level_field_has_the_size_of_the_input.
Example C22_size_example : quantile_fast2 E0 [[fz 1; NaN]; [fz 0; fz 2]] [[fz 0]; [fz 1]] 0 [fz 0] = Throw InvalidArgument.
Proof. reflexivity. Qed.
Theorem C22_quantile_fast_checks_arguments_of_ensembles : forall E input quantile nY nX nE h thr, rect3 nY nX nE input -> 0 < nY -> 0 < nX -> 0 < nE ->
  (h < 0 -> quantile_fast3 E input quantile h thr = Throw InvalidArgument) /\
  ((exists y x q, get2 quantile y x = Ok q /\ ~ good_level q) -> quantile_fast3 E input quantile h thr = Throw InvalidArgument) /\
  (forall q0, znth quantile 0 = Ok q0 -> ~ (zlen quantile = 1 /\ zlen q0 = 1) -> ~ (zlen quantile = nY /\ zlen q0 = nX) ->
     quantile_fast3 E input quantile h thr = Throw InvalidArgument) /\
  (0 <= h -> (rect 1 1 quantile \/ rect nY nX quantile) -> (forall y x q, get2 quantile y x = Ok q -> good_level q) ->
     quantile_fast3 E input quantile h [] = Ok (map (map (fun _ => MV)) input)).
Proof. exact quantile_fast3_checks. Qed.
Print Assumptions C22_quantile_fast_checks_arguments_of_ensembles.
Example C22_ensemble_checks_example : quantile_fast3 E0 [[[fz 1; fz 3]; [NaN; fz 2]]] [[fz 0; fz 2]] 0 [fz 0] = Throw InvalidArgument /\
  quantile_fast3 E0 [[[fz 1; fz 3]; [NaN; fz 2]]] [[fz 0; fz 1]] 0 [] = Ok [[NaN; NaN]].
Proof. split; reflexivity. Qed.
