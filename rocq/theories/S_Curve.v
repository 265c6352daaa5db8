(** Specification of calibration curves. *)
From Verif Require Import Base S_Stat S_Interp M_Curve.

(** slope used beyond the end of the curve; one-point curves use slope 1 for the two data-driven policies *)
Definition end_slope (pol : policy) (X Y : list Qc) (below : bool) (s : Qc) : Prop :=
  let n := zlen X in
  match pol with
  | OneToOne => s = 1%Qc
  | Zero => s = 0%Qc
  | MeanSlope => if n =? 1 then s = 1%Qc else s = ((qnth Y (n - 1) - qnth Y 0) / (qnth X (n - 1) - qnth X 0))%Qc
  | NearestSlope => if n =? 1 then s = 1%Qc else
      if below then s = ((qnth Y 1 - qnth Y 0) / (qnth X 1 - qnth X 0))%Qc
      else s = ((qnth Y (n - 1) - qnth Y (n - 2)) / (qnth X (n - 1) - qnth X (n - 2)))%Qc
  | _ => False
  end.
(** the points defining the slope have different forecast values *)
Definition slope_defined (pol : policy) (X : list Qc) (below : bool) : Prop :=
  let n := zlen X in
  match pol with
  | MeanSlope => n = 1 \/ (qnth X 0 < qnth X (n - 1))%Qc
  | NearestSlope => n = 1 \/ (if below then (qnth X 0 < qnth X 1)%Qc else (qnth X (n - 2) < qnth X (n - 1))%Qc)
  | BadPolicy => False
  | _ => True
  end.
(** the corrected value of x *)
Definition curve_value (X Y : list Qc) (pb pa : policy) (x r : Qc) : Prop :=
  let n := zlen X in
  ((qnth X 0 <= x <= qnth X (n - 1))%Qc -> exists a b, bracket X x a b /\ interp_rule X Y x a b r) /\
  ((x < qnth X 0)%Qc -> pb = Unchanged -> r = x) /\
  ((x < qnth X 0)%Qc -> pb <> Unchanged -> exists s, end_slope pb X Y true s /\ r = (qnth Y 0 + s * (x - qnth X 0))%Qc) /\
  ((qnth X (n - 1) < x)%Qc -> pa = Unchanged -> r = x) /\
  ((qnth X (n - 1) < x)%Qc -> pa <> Unchanged -> exists s, end_slope pa X Y false s /\ r = (qnth Y (n - 1) + s * (x - qnth X (n - 1)))%Qc).
Definition increasing (X : list Qc) : Prop := StronglySorted Qclt X.
Definition ordinary (p : policy) : Prop := p = OneToOne \/ p = MeanSlope \/ p = NearestSlope \/ p = Zero.

(** out is obtained from l by leaving out elements *)
Inductive subseq {A} : list A -> list A -> Prop :=
| sub_nil : subseq [] []
| sub_skip x l m : subseq l m -> subseq l (x :: m)
| sub_take x l m : subseq l m -> subseq (x :: l) (x :: m).
(** the complete pairs of a curve (forecast, reference) *)
Fixpoint complete_pairs (fcst ref : vec) : list (Qc * Qc) :=
  match fcst, ref with
  | Fin f :: fs, Fin r :: rs => (f, r) :: complete_pairs fs rs
  | _ :: fs, _ :: rs => complete_pairs fs rs
  | _, _ => []
  end.
(** consecutive values increase by more than d *)
Definition steps_above (d : Qc) (l : list Qc) : Prop := forall i, 0 <= i -> i + 1 < zlen l -> (qnth l i + d < qnth l (i + 1))%Qc.
(** out keeps only points whose forecast value is below that of every later point of l *)
Inductive below_later : list (Qc * Qc) -> list (Qc * Qc) -> Prop :=
| bl_nil : below_later [] []
| bl_skip x l m : below_later l m -> below_later l (x :: m)
| bl_take x l m : below_later l m -> Forall (fun y => (fst x < fst y)%Qc) m -> below_later (x :: l) (x :: m).
