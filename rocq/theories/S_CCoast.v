(** Specification of the client's coastal calibrator. *)
From Verif Require Import Base M_Stat M_COpt M_CUtil S_CUtil M_CCal S_CCal S_CDown S_CGradient.
Local Open Scope Z_scope.

(** the land fractions are numbers between 0 and 1 *)
Definition fraction_at (laf : list vec) (p : Z * Z) (q : Qc) : Prop := get2 laf (fst p) (snd p) = Ok (Fin q).
Definition fractions (d : dims) (laf : list vec) : Prop := rect (d_y d) (d_x d) laf /\ forall y x, 0 <= y < d_y d -> 0 <= x < d_x d -> exists q, fraction_at laf (y, x) q /\ (0 <= q <= 1)%Qc.
(** the first point of lowest (highest) fraction within the radius, in the order of rows and columns *)
Definition least_land (d : dims) (radius : Z) (laf : list vec) (y x : Z) (p : Z * Z) (q : Qc) : Prop := close (d_y d) (d_x d) radius y x p /\ fraction_at laf p q /\
  forall p' q', close (d_y d) (d_x d) radius y x p' -> fraction_at laf p' q' -> (q <= q')%Qc /\ (before p' p -> q' <> q).
Definition most_land (d : dims) (radius : Z) (laf : list vec) (y x : Z) (p : Z * Z) (q : Qc) : Prop := close (d_y d) (d_x d) radius y x p /\ fraction_at laf p q /\
  forall p' q', close (d_y d) (d_x d) radius y x p' -> fraction_at laf p' q' -> (q' <= q)%Qc /\ (before p' p -> q' <> q).
(** what the calibrator finds at p when it has come to (y, x): the result for the points before, the raw value for the others *)
Definition found (fs out : list field) (t y x e : Z) (p : Z * Z) (v : Qc) : Prop :=
  (before p (y, x) -> element out t (fst p) (snd p) e (Fin v)) /\ (~ before p (y, x) -> element fs t (fst p) (snd p) e (Fin v)).
(** a + b * base + c * (gradient over land fraction), where [look p v] tells the value at p *)
Definition coastal_rule (radius : Z) (minDiff : Qc) (useNN : bool) (par : vec) (laf : list vec) (d : dims) (look : Z * Z -> Qc -> Prop) (y x : Z) (w : Qc) : Prop :=
  exists a b c pl ql pu qu lo up own, znth par 0 = Ok (Fin a) /\ znth par 1 = Ok (Fin b) /\ znth par 2 = Ok (Fin c) /\
    least_land d radius laf y x pl ql /\ most_land d radius laf y x pu qu /\ look pl lo /\ look pu up /\ look (y, x) own /\
    w = (a + b * (if useNN then own else lo) + c * (if Qclt_le_dec minDiff (qu - ql) then (up - lo) / (qu - ql) else 0))%Qc.
Definition all_present (d : dims) (fs : list field) : Prop := forall t y x e v, 0 <= t < d_t d -> within d y x e -> element fs t y x e v -> ~ missing v.
