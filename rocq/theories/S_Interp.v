(** Specification of piecewise linear interpolation (independent of the index loops). *)
From Verif Require Import Base S_Stat.

(** [bracket X x a b]: exactly the first a knots are below x, the knots a..b-1 equal x, the rest are above *)
Definition bracket (X : list Qc) (x : Qc) (a b : Z) : Prop :=
  0 <= a <= b /\ b <= zlen X /\
  forall j, 0 <= j < zlen X ->
    (j < a -> (qnth X j < x)%Qc) /\ (a <= j < b -> qnth X j = x) /\ (b <= j -> (x < qnth X j)%Qc).
(** value prescribed by the documentation of interpolate (include/gridpp.h:1538-1548), given the bracket *)
Definition interp_rule (X Y : list Qc) (x : Qc) (a b : Z) (r : Qc) : Prop :=
  let n := zlen X in
  (a = n -> r = qnth Y (n - 1)) /\                               (* above the curve *)
  (b = 0 -> r = qnth Y 0) /\                                     (* below the curve *)
  (a < b -> a = 0 -> b = n -> r = ((qnth Y a + qnth Y (b - 1)) / (1 + 1))%Qc) /\
  (a < b -> a = 0 -> b < n -> r = qnth Y (b - 1)) /\              (* flat part at the lower edge only *)
  (a < b -> 0 < a -> b = n -> r = qnth Y a) /\                    (* flat part at the upper edge only *)
  (a < b -> 0 < a -> b < n -> r = ((qnth Y a + qnth Y (b - 1)) / (1 + 1))%Qc) /\
  (a = b -> 0 < a -> a < n ->                                    (* strictly between two knots *)
     r = (qnth Y (a - 1) + (qnth Y a - qnth Y (a - 1)) * ((x - qnth X (a - 1)) / (qnth X a - qnth X (a - 1))))%Qc).
