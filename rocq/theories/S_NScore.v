(** Specification of scores over a neighbourhood. *)
From Verif Require Import Base S_Stat S_Neigh S_Near M_Score S_Score.

(** the observations assigned to a cell *)
Definition cell_obs (cell : Z -> Z * Z) (ref : vec) (y x : Z) : list Qc := finites (pick (fun s => zz_eqb (cell s) (y, x)) ref).
(** the (observation, forecast) pair of a cell: the mean observation with the forecast, none if either is missing *)
Definition cell_pair (obs : list Qc) (f : val) : list (Qc * Qc) :=
  match obs, f with _ :: _, Fin q => [(qmean obs, q)] | _, _ => [] end.
(** [v] is the score of a contingency table; missing without a denominator, except for Bias, which is then 1 *)
Definition score_of (a b c d : Qc) (m : metric) (v : val) : Prop :=
  (score_den a b c d m = 0%Qc -> v = match m with Bias => fz 1 | _ => MV end) /\
  (score_den a b c d m <> 0%Qc -> exists s, v = Fin s /\ (s * score_den a b c d m = score_num a b c d m)%Qc /\ (score_lo m <= s <= 1)%Qc).
(** the score of a list of pairs *)
Definition score_pairs (t : Qc) (l : list (Qc * Qc)) (m : metric) (v : val) : Prop :=
  score_of (qz (tally t t true true l)) (qz (tally t t false true l)) (qz (tally t t true false l)) (qz (tally t t false false l)) m v.
