(** Specification of more calibrators of the client. *)
From Verif Require Import Base M_Stat S_Stat M_COpt M_CUtil S_CUtil M_CCal S_CCal M_CCal2.
Local Open Scope Z_scope.

(** the Fourier series of a direction with nine coefficients *)
Definition fourier (sn cs : Z -> Qc -> Qc) (par : list Qc) (dir : Qc) : Qc :=
  (qnth par 0 + qsum (map (fun k => qnth par (2 * k - 1) * sn k dir + qnth par (2 * k) * cs k dir)%Qc (zrange 1 5)))%Qc.
Definition lift2 (f : Z -> Qc -> Qc) (k : Z) (v : val) : val := match v with Fin q => Fin (f k q) | _ => NaN end.
(** sums of products *)
Fixpoint qpow (x : Qc) (n : nat) : Qc := match n with O => 1%Qc | S m => (x * qpow x m)%Qc end.
Definition polynomial (cs : list Qc) (x : Qc) : Qc := qsum (map (fun p => qnth cs p * qpow x (Z.to_nat p))%Qc (zrange 0 (zlen cs))).
Definition combination (cs xs : list Qc) : Qc := qsum (map (fun p => qnth cs p * qnth xs p)%Qc (zrange 0 (zlen cs))).
(** the pairs of observation and ensemble mean that can be used for training *)
Definition training_pair (x : val * vec) : list (Qc * Qc) :=
  match present [fst x] with
  | [o] => if list_eq_dec Qc_eq_dec (present (snd x)) [] then [] else if Qc_eq_dec (qmean (present (snd x))) missing_number then [] else [(o, qmean (present (snd x)))]
  | _ => []
  end.
Definition training_pairs (data : list (val * vec)) : list (Qc * Qc) := flat_map training_pair data.
(** the sum of squared errors of the forecasts a + b f *)
Definition squared_error (pairs : list (Qc * Qc)) (a b : Qc) : Qc := qsum (map (fun p => let '(o, f) := p in (o - (a + b * f)) * (o - (a + b * f)))%Qc pairs).
(** some location is closer than its radius, at the time that counts *)
Definition near (n : Z) (dist radius : Z -> val) : Prop := exists k q, 0 <= k < n /\ dist k = Fin q /\ q <> missing_number /\ (radius k = PInf \/ exists r, radius k = Fin r /\ (q < r)%Qc).
Definition reached (timeDependent : bool) (n : Z) (dist : Z -> val) (radius : Z -> Z -> val) (t : Z) : Prop :=
  exists t', 0 <= t' <= t /\ (t' = 0 \/ timeDependent = true) /\ near n dist (radius t').
(** location k is written to the point (y, x) *)
Definition overrides (radius : Z) (maxElevDiff : option Qc) (nn : Z -> Z * Z) (value pelev : Z -> val) (elev : Z -> Z -> val) (d : dims) (k y x : Z) : Prop :=
  (exists q, value k = Fin q /\ q <> missing_number) /\
  0 < fst (nn k) < d_y d - 1 /\ 0 < snd (nn k) < d_x d - 1 /\ Z.abs (y - fst (nn k)) <= radius /\ Z.abs (x - snd (nn k)) <= radius /\
  (forall m, maxElevDiff = Some m -> exists a b, elev y x = Fin a /\ pelev k = Fin b /\ a <> missing_number /\ b <> missing_number /\ (- m < a - b < m)%Qc).
(** the predictors of an element are the numbers xs *)
Definition predictors (variables : list (option (list field))) (t y x e : Z) (xs : list Qc) : Prop :=
  zlen xs = zlen variables /\ forall p o, znth variables p = Ok o ->
    match o with None => qnth xs p = 1%Qc | Some fs => element fs t y x e (Fin (qnth xs p)) /\ qnth xs p <> missing_number end.
Definition predictor_missing (variables : list (option (list field))) (t y x e : Z) : Prop :=
  exists p fs v, znth variables p = Ok (Some fs) /\ element fs t y x e v /\ missing v.
