(** Specification of the client's qq calibrator. *)
From Coq Require Import Permutation.
From Verif Require Import Base M_Stat S_Stat S_Interp M_Curve S_Curve M_COpt M_CUtil S_CUtil.
Local Open Scope Z_scope.

(** a parameter set: pairs of an observation and a forecast *)
Definition pair_values (l : list (Qc * Qc)) : vec := flat_map (fun p => [Fin (fst p); Fin (snd p)]) l.
(** the curve from forecasts X to observations Y: extra points make that both are sorted *)
Definition qq_curve (extraObs extraFcst : list Qc) (l : list (Qc * Qc)) (X Y : list Qc) : Prop :=
  match extraObs with
  | [] => X = map snd l /\ Y = map fst l
  | _ => qsorted X /\ Permutation X (map snd l ++ extraFcst) /\ qsorted Y /\ Permutation Y (map fst l ++ extraObs)
  end.
(** the calibrated value: on the curve, and on a line through its nearest end outside *)
Definition qq_rule (p : policy) (X Y : list Qc) (x r : Qc) : Prop :=
  let n := zlen X in
  ((qnth X 0 < x < qnth X (n - 1))%Qc -> exists a b, bracket X x a b /\ S_CUtil.curve_value X Y x a b r) /\
  ((x <= qnth X 0)%Qc -> exists s, end_slope p X Y true s /\ r = (qnth Y 0 + s * (x - qnth X 0))%Qc) /\
  ((qnth X 0 < x)%Qc -> (qnth X (n - 1) <= x)%Qc -> exists s, end_slope p X Y false s /\ r = (qnth Y (n - 1) + s * (x - qnth X (n - 1)))%Qc).
(** the value has a slope where one is needed *)
Definition qq_defined (p : policy) (X : list Qc) (x : Qc) : Prop :=
  ((x <= qnth X 0)%Qc -> slope_defined p X true) /\ ((qnth X 0 < x)%Qc -> (qnth X (zlen X - 1) <= x)%Qc -> slope_defined p X false).
(** what is kept of the training data: everything, sorted, or quantiles *)
Definition qq_kept (quantiles : list Qc) (l b : list (Qc * Qc)) : Prop :=
  match quantiles, l with
  | [], _ => qsorted (map fst b) /\ Permutation (map fst b) (map fst l) /\ qsorted (map snd b) /\ Permutation (map snd b) (map snd l)
  | _, [] => b = []
  | _, _ => Forall2 (fun q p => is_quantile (map fst l) q (fst p) /\ is_quantile (map snd l) q (snd p)) quantiles b
  end.
