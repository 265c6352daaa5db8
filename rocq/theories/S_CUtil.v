(** Specification of the client's statistics, interpolation, locations and fields. *)
From Verif Require Import Base M_Stat S_Stat M_COpt M_CUtil.
Local Open Scope Z_scope.

(** the client marks missing values with -999, the library with NaN *)
Definition missing_number : Qc := qz (-999).
Definition from_client (v : val) : val := match v with Fin q => if Qc_eq_dec q missing_number then NaN else Fin q | _ => NaN end.
Definition to_client (v : val) : val := match v with NaN => Fin missing_number | _ => v end.
(** the values that are present *)
Definition present (a : vec) : list Qc := filter (fun q => if Qc_eq_dec q missing_number then false else true) (finites a).
Definition same_statistic (c : cstat) (s : statistic) : Prop :=
  match c, s with CMean, Mean | CMin, Min | CMedian, Median | CMax, Max | CStd, Std | CSum, Sum => True | _, _ => False end.

(** a strict weak order: what sorted containers require *)
Definition strict_weak {A} (P : A -> Prop) (lt : A -> A -> bool) : Prop :=
  (forall a, P a -> lt a a = false) /\
  (forall a b c, P a -> P b -> P c -> lt a b = true -> lt b c = true -> lt a c = true) /\
  (forall a b c, P a -> P b -> P c -> lt a b = false -> lt b a = false -> lt b c = false -> lt c b = false -> lt a c = false /\ lt c a = false).
Definition number (v : val) : Prop := v <> NaN.
Definition proper (l : location) : Prop := number (l_lat l) /\ number (l_lon l) /\ number (l_elev l).
Definition same_place (a b : location) : Prop := l_lat a = l_lat b /\ l_lon a = l_lon b.

Definition field_ok (f : field) : Prop := 0 <= f_ny f /\ 0 <= f_nx f /\ 0 <= f_ne f /\ zlen (f_values f) = f_ny f * f_nx f * f_ne f.
Definition inside (f : field) (y x e : Z) : Prop := 0 <= y < f_ny f /\ 0 <= x < f_nx f /\ 0 <= e < f_ne f.
Definition same_size (f g : field) : Prop := f_ny f = f_ny g /\ f_nx f = f_nx g /\ f_ne f = f_ne g.

Definition increasing (l : list Qc) : Prop := StronglySorted Qclt l.
(** the value of a piecewise linear curve through the knots (X, Y): constant outside, and the mean of the first and last value where knots coincide;
    [a] knots are below x and [b - a] equal to it *)
Definition curve_value (X Y : list Qc) (x : Qc) (a b : Z) (r : Qc) : Prop :=
  let n := zlen X in
  (a = n -> r = qnth Y (n - 1)) /\ (b = 0 -> r = qnth Y 0) /\ (a < b -> r = ((qnth Y a + qnth Y (b - 1)) / (1 + 1))%Qc) /\
  (a = b -> 0 < a < n -> r = (qnth Y (a - 1) + (qnth Y a - qnth Y (a - 1)) * ((x - qnth X (a - 1)) / (qnth X a - qnth X (a - 1))))%Qc).
Definition no_missing (l : list Qc) : Prop := Forall (fun q => q <> missing_number) l.
Definition sqrt_nonneg (E : ext) : Prop := forall x, (0 <= x -> 0 <= ext_sqrt E x)%Qc.
