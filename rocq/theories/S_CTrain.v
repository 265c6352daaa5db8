(** Specification of linear regression in the client and of the training of its coastal calibrator. *)
From Verif Require Import Base M_Stat S_Stat M_OI S_OI M_COpt M_CUtil S_CUtil M_CCal S_CCal S_CCoast.
Local Open Scope Z_scope.

(** *** linear regression: T cases, n predictors, X t k predictor k of case t *)
Definition fit (n : Z) (X : Z -> Z -> Qc) (b : Z -> Qc) (t : Z) : Qc := tot (zrange 0 n) (fun k => X t k * b k)%Qc.
Definition misfit (T n : Z) (X : Z -> Z -> Qc) (y b : Z -> Qc) : Qc := tot (zrange 0 T) (fun t => (y t - fit n X b t) * (y t - fit n X b t))%Qc.
(** the coefficients b fit better than all others *)
Definition best_fit (T n : Z) (X : Z -> Z -> Qc) (y b : Z -> Qc) : Prop :=
  forall b', (misfit T n X y b <= misfit T n X y b')%Qc /\ (misfit T n X y b' = misfit T n X y b -> forall k, 0 <= k < n -> b' k = b k).
(** some combination of the predictors vanishes in all cases *)
Definition dependent (T n : Z) (X : Z -> Z -> Qc) : Prop := exists v : Z -> Qc, (exists k, 0 <= k < n /\ v k <> 0%Qc) /\ forall t, 0 <= t < T -> fit n X v t = 0%Qc.
Definition predictor_value (preds : list (list Qc)) (addConst : bool) (t k : Z) : Qc :=
  if addConst then if k =? 0 then 1%Qc else qnth (nth (Z.to_nat (k - 1)) preds []) t else qnth (nth (Z.to_nat k) preds []) t.
(** what is assumed of the library called: it inverts matrices of numbers, or tells that they are singular *)
Definition lu_inverts (lu : vec2 -> option vec2) (n : Z) : Prop := forall M A, entries n M A ->
  match lu M with
  | Some N => exists B, entries n N B /\ forall i j, 0 <= i < n -> 0 <= j < n -> tot (zrange 0 n) (fun k => A i k * B k j)%Qc = unit_ i j
  | None => exists v : Z -> Qc, (exists k, 0 <= k < n /\ v k <> 0%Qc) /\ forall j, 0 <= j < n -> tot (zrange 0 n) (fun i => v i * A i j)%Qc = 0%Qc
  end.
(** an instance, by elimination *)
Definition lu0 (M : vec2) : option vec2 := match inv0 M with Ok N => Some N | _ => None end.

(** *** training of the coastal calibrator *)
(** a number, or the mean of the members that are present *)
Definition known (v : val) : option Qc := match v with Fin q => if Qc_eq_dec q missing_number then None else Some q | _ => None end.
Definition mean_of (vs : vec) : option Qc := if list_eq_dec Qc_eq_dec (present vs) [] then None else if Qc_eq_dec (qmean (present vs)) missing_number then None else Some (qmean (present vs)).
Definition mean_at (d : dims) (f : field) (p : Z * Z) (m : option Qc) : Prop :=
  exists vs, zlen vs = d_e d /\ (forall e, 0 <= e < d_e d -> f_get f (fst p) (snd p) e = znth vs e) /\ m = mean_of vs.
(** a case: what was observed, and the forecasts at the point itself, at the point with the least land and at the one with the most *)
Record case := { c_obs : option Qc; c_own : option Qc; c_low : option Qc; c_high : option Qc }.
Definition case_at (d : dims) (Io Jo : Z) (own low high : Z * Z) (x : field * field) (c : case) : Prop :=
  of_size d (snd x) /\ (exists v, f_get (fst x) Io Jo 0 = Ok v /\ c_obs c = known v) /\
  mean_at d (snd x) own (c_own c) /\ mean_at d (snd x) low (c_low c) /\ mean_at d (snd x) high (c_high c).
Definition base (useNN : bool) (c : case) : option Qc := if useNN then c_own c else c_low c.
(** the error of the forecast without correction, and the change of the forecast per unit of land fraction *)
Definition sample (useNN : bool) (land : Qc) (c : case) : list (Qc * Qc) :=
  match c_obs c, c_own c, base useNN c with
  | Some o, Some _, Some b => [((o - b)%Qc, match c_low c, c_high c with Some l, Some u => ((u - l) / land)%Qc | _, _ => 0%Qc end)]
  | _, _, _ => []
  end.
Definition samples (useNN : bool) (land : Qc) (cs : list case) : list (Qc * Qc) := flat_map (sample useNN land) cs.
(** every case with an observation and a forecast at the point has the forecast that is to be corrected *)
Definition bases_known (useNN : bool) (cs : list case) : Prop := forall c, In c cs -> c_obs c <> None -> c_own c <> None -> base useNN c <> None.
(** what is given to the training at the point (Ie, Je) *)
Definition training (d : dims) (radius : Z) (laf : list vec) (Io Jo Ie Je : Z) (pl : Z * Z) (ql : Qc) (pu : Z * Z) (qu : Qc) (data : list (field * field)) (cs : list case) : Prop :=
  0 <= radius /\ fractions d laf /\ 0 < d_e d /\ 0 <= Ie < d_y d /\ 0 <= Je < d_x d /\ least_land d radius laf Ie Je pl ql /\ most_land d radius laf Ie Je pu qu /\
  data <> [] /\ Forall2 (case_at d Io Jo (Ie, Je) pl pu) data cs.
Definition varied (l : list (Qc * Qc)) : Prop := exists p p', In p l /\ In p' l /\ snd p <> snd p'.
(** [ws] are the members of a case at the point after the calibration of the raw field with the parameters *)
Definition calibrated_case (d : dims) (radius : Z) (md : Qc) (useNN : bool) (par : vec) (laf : list vec) (Ie Je : Z) (x : field * field) (ws : list Qc) : Prop :=
  zlen ws = d_e d /\ forall e, 0 <= e < d_e d -> coastal_rule radius md useNN par laf d (fun p v => f_get (snd x) (fst p) (snd p) e = Ok (Fin v)) Ie Je (qnth ws e).
(** the observation is o, and all members are present, with numbers above that for missing values *)
Definition complete_case (d : dims) (Io Jo : Z) (x : field * field) (o : Qc) : Prop :=
  f_get (fst x) Io Jo 0 = Ok (Fin o) /\ o <> missing_number /\ forall y z e, within d y z e -> exists q, f_get (snd x) y z e = Ok (Fin q) /\ (missing_number < q)%Qc.
