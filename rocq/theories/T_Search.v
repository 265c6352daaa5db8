(** Property theorems C26. *)
From Verif Require Import Base M_Search S_Neigh S_Search P_Search.

(** C26 *)
Theorem C26_neighbourhood_search array search nY nX h tmin tmax delta apply :
  rect nY nX array -> rect nY nX search -> 0 < nY -> 0 <= nX -> 0 <= h -> (tmin <= tmax)%Qc -> apply = [] \/ rect nY nX apply ->
  exists out, neighbourhood_search array search h (Fin tmin) (Fin tmax) (Fin delta) apply = Ok out /\
    filtered nY nX (fun y x v => exists a, (apply = [] /\ a = 1 \/ apply <> [] /\ get2 apply y x = Ok a) /\ search_value array search h tmin tmax delta a y x v) out.
Proof. exact (c26_all array search nY nX h tmin tmax delta apply). Qed.
Print Assumptions C26_neighbourhood_search.
Example C26_example : rect 1 3 [[fz 1; fz 2; fz 3]] /\ rect 1 3 [[fz 5; fz 0; fz 9]] /\
  neighbourhood_search [[fz 1; fz 2; fz 3]] [[fz 5; fz 0; fz 9]] 1 (fz 4) (fz 6) (fz 1) [] = Ok [[fz 1; fz 1; fz 2]].
Proof. split; [|split; [|vcalc]]; (split; [reflexivity|]); intros r [<-|[]]; reflexivity. Qed.
Theorem C26_search_arguments_checked array search nY nX h tmin tmax delta apply : rect nY nX array -> 0 < nY ->
  (vltb tmax tmin = true \/ h < 0 \/ zlen search <> nY \/ (1 < zlen apply /\ zlen apply <> nY /\ rect nY nX search)) ->
  neighbourhood_search array search h tmin tmax delta apply = Throw InvalidArgument.
Proof. exact (c26_checks array search nY nX h tmin tmax delta apply). Qed.
Print Assumptions C26_search_arguments_checked.
Example C26_checked_example : neighbourhood_search [[fz 1]] [[fz 1]] (-1) (fz 0) (fz 1) (fz 0) [] = Throw InvalidArgument.
Proof. reflexivity. Qed.
