(** Specification of neighbourhood_quantile_fast. *)
From Verif Require Import Base S_Stat S_Interp S_Neigh.

(** fraction of the numbers l that are at most t *)
Definition frac_le (l : list Qc) (t : Qc) : Qc := (qz (count_le l t) / qlen l)%Qc.
(** ensemble: the mean over the cells with a finite member of the cell's fraction *)
Definition cell_fracs (cells : list vec) (t : Qc) : list Qc :=
  map (fun m => frac_le (finites m) t) (filter (fun m => match finites m with [] => false | _ => true end) cells).
(** r is the value at level q of the piecewise linear curve through (X_k, T_k), except that level 1 (0) takes the first
    (last) threshold if all of the curve is at 1 (0) *)
Definition fast_rule (X T : list Qc) (q r : Qc) : Prop :=
  (q = 1%Qc -> qnth X 0 = 1%Qc -> r = qnth T 0) /\
  (q = 0%Qc -> qnth X (zlen X - 1) = 0%Qc -> r = qnth T (zlen T - 1)) /\
  (~ (q = 1%Qc /\ qnth X 0 = 1%Qc) -> ~ (q = 0%Qc /\ qnth X (zlen X - 1) = 0%Qc) ->
     exists a b, bracket X q a b /\ interp_rule X T q a b r).
(** specification of one cell: window is empty iff missing; otherwise within the thresholds, on the curve [X], and equal
    to the threshold whose fraction is the level if there is exactly one *)
Definition fast_value (none : Prop) (X T : list Qc) (level v : val) : Prop :=
  match level with
  | Fin q =>
    (v = MV <-> none) /\
    (~ none -> exists r, v = Fin r /\ (qnth T 0 <= r <= qnth T (zlen T - 1))%Qc /\ fast_rule X T q r /\
       forall k, 0 <= k < zlen T -> qnth X k = q -> (forall j, 0 <= j < zlen T -> j <> k -> qnth X j <> q) -> r = qnth T k)
  | _ => v = MV
  end.
(** acceptable levels: missing or in [0,1] *)
Definition good_level (q : val) : Prop := match q with Fin q => (0 <= q <= 1)%Qc | _ => True end.
(** the level of cell (y, x): a 1x1 level field applies everywhere *)
Definition level_at (quantile : vec2) (y x : Z) (q : val) : Prop :=
  (rect 1 1 quantile /\ get2 quantile 0 0 = Ok q) \/ (~ rect 1 1 quantile /\ get2 quantile y x = Ok q).
