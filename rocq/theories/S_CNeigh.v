(** Specification of the client's neighbourhood calibrator. *)
From Verif Require Import Base M_COpt M_CUtil M_CCal S_Stat S_CUtil S_Neigh S_CCal.
Local Open Scope Z_scope.

(** the grid of the values of a member at a time *)
Definition member_grid (d : dims) (fs : list field) (t e : Z) (g : vec2) : Prop :=
  rect (d_y d) (d_x d) g /\ forall y x v, get2 g y x = Ok v -> element fs t y x e v.
(** what a point becomes when l are the values that are present around it; without any it is missing, though possibly not as -999 *)
Definition filtered_value (E : ext) (st : cstat) (q : Qc) (l : list Qc) (w : val) : Prop :=
  (l = [] -> missing w) /\ (l <> [] -> client_statistic E st q l w).
Definition takes_levels (st : cstat) : Prop := st = CMedian \/ st = CQuantile.
(** the radius for a time: given as an option, or the whole part of the first parameter for that time *)
Definition radius_for (radius : Z) (pars : option (bool * (Z -> vec))) (t r : Z) : Prop :=
  match pars with
  | None => r = radius
  | Some (location_dependent, p) => location_dependent = false /\ exists v, znth (p t) 0 = Ok (Fin v) /\ (0 <= v)%Qc /\ (qz r <= v < qz (r + 1))%Qc
  end.
