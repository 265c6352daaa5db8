(** Specification vocabulary for the ensemble analyses. *)
From Verif Require Import Base M_Geo S_Geo S_OI M_OI.

(** member [e] of a field with one row per location *)
Definition col (e : Z) (f : vec2) : vec := map (fun r => match znth r e with Ok v => v | _ => NaN end) f.
(** member [e] has a value at every location *)
Definition complete (e : Z) (f : vec2) : Prop := forall v, In v (col e f) -> exists q, v = Fin q.
(** an increment [x] limited to the range of the departures and zero gives [z].  (Nothing is promised on a side where the extreme
    departure is exactly zero.) *)
Definition clipped (lo hi x z : Qc) : Prop :=
  ((x <= hi \/ x <= 0) /\ (lo <= x \/ 0 <= x) -> z = x)%Qc /\
  (hi <> 0 -> hi < x -> 0 < x -> (0 < hi -> z = hi) /\ (hi < 0 -> z = 0))%Qc /\
  (lo <> 0 -> x < lo -> x < 0 -> (lo < 0 -> z = lo) /\ (0 < lo -> z = 0))%Qc.
(** analysis of one member at one background point, given the observations [U] used there: background [b], correlations [r] and [g],
    relative errors [ratio], departures [d], scale [s] *)
Definition member_analysis (U : list Z) (r : Z -> Z -> Qc) (ratio g d : Z -> Qc) (s : Qc) (extrapolate : bool) (b : Qc) (out : val) : Prop :=
  (U = [] -> out = Fin b) /\
  (U <> [] -> exists w z, weights U r ratio g w /\ (forall w', weights U r ratio g w' -> forall k, In k U -> w' k = w k) /\
     out = Fin (b + z)%Qc /\
     (extrapolate = true -> z = (s * tot U (fun k => w k * d k))%Qc) /\
     (extrapolate = false -> exists lo hi, smallest U d lo /\ largest U d hi /\ clipped lo hi (s * tot U (fun k => w k * d k))%Qc z)).
(** arguments of matching sizes, where exactly the first [m] of the [nE] members have values at every background and observation point *)
Record ens_input (nB nS nE m : Z) (bratios : vec) (background pobs : vec2) (pratios : vec) (pbg : vec2) : Prop := {
  en_m : 0 <= m <= nE;
  en_bg : rect nB nE background;
  en_obs : rect nS nE pobs;
  en_pbg : rect nS nE pbg;
  en_br : zlen bratios = nB;
  en_pr : zlen pratios = nS;
  en_ok : forall e, 0 <= e < m -> complete e background /\ complete e pbg;
  en_no : forall e, m <= e < nE -> ~ (complete e background /\ complete e pbg)
}.
