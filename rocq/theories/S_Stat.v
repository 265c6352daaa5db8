(** Specification vocabulary for statistics: plain mathematics on lists of rationals. *)
From Verif Require Import Base.
From Coq Require Export Permutation Sorting.
From Coq Require Import Qround.

(** the finite entries of an array, in order *)
Fixpoint finites (a : vec) : list Qc :=
  match a with [] => [] | Fin q :: t => q :: finites t | _ :: t => finites t end.
Fixpoint qsum (l : list Qc) : Qc := match l with [] => 0%Qc | x :: t => (x + qsum t)%Qc end.
Definition qlen {A} (l : list A) : Qc := qz (zlen l).
Definition qmean (l : list Qc) : Qc := (qsum l / qlen l)%Qc.
(** mean squared deviation from the mean *)
Definition qvar (l : list Qc) : Qc :=
  (qsum (map (fun x => (x - qmean l) * (x - qmean l)) l) / qlen l)%Qc.
Definition qsorted (l : list Qc) : Prop := StronglySorted Qcle l.
Definition is_min (l : list Qc) (m : Qc) : Prop := In m l /\ forall x, In x l -> (m <= x)%Qc.
Definition is_max (l : list Qc) (m : Qc) : Prop := In m l /\ forall x, In x l -> (x <= m)%Qc.
(** k-th element, only used for 0 <= k < length *)
Definition qnth (s : list Qc) (k : Z) : Qc := nth (Z.to_nat k) s 0%Qc.
(** linear interpolation between s_k and s_{k+1} at (fractional) position pos;
    at the last element the fraction is 0, so qnth's default is irrelevant *)
Definition lerp_at (s : list Qc) (pos : Qc) : Qc :=
  let k := Qfloor pos in
  (qnth s k + (pos - qz k) * (qnth s (k + 1) - qnth s k))%Qc.
(** r is the quantile of level q of the sample l *)
Definition is_quantile (l : list Qc) (q r : Qc) : Prop :=
  exists s, Permutation s l /\ qsorted s /\ r = lerp_at s (q * qz (zlen l - 1))%Qc.
(** number of elements below/above *)
Definition count_le (l : list Qc) (x : Qc) : Z := zlen (filter (fun y => qleb y x) l).
Definition count_ge (l : list Qc) (x : Qc) : Z := zlen (filter (fun y => qleb x y) l).

(** the statistics with a deterministic value *)
Definition stat_listed (st : statistic) : Prop :=
  st = Mean \/ st = Sum \/ st = Count \/ st = Min \/ st = Max \/ st = Median \/ st = Variance \/ st = Std.
(** rescaling of the finite entries *)
Definition scale_val (a b : Qc) (v : val) : val := match v with Fin x => Fin (a * x + b)%Qc | _ => v end.
(** b is obtained from a by raising some values; missing entries stay missing *)
Definition raised (a b : vec) : Prop :=
  Forall2 (fun u v => match u, v with Fin x, Fin y => (x <= y)%Qc | Fin _, _ | _, Fin _ => False | _, _ => True end) a b.
(** number of distinct values *)
Definition distinct (l : list Qc) : Z := zlen (nodup Qc_eq_dec l).
(** every finite value of l appears in some order, i.e. same collection of finite values *)
Definition same_finites (a b : vec) : Prop := Permutation (finites a) (finites b).
