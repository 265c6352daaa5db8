(** Specification of the client's calibrators that fit distributions. *)
From Coq Require Import Permutation.
From Verif Require Import Base M_Stat S_Stat M_COpt M_CUtil S_CUtil M_CCal S_CCal.
Local Open Scope Z_scope.

(** the level of a member among n, and the quantiles of a law at the levels of the members *)
Definition member_level (n e : Z) : Qc := ((qz e + Q2Qc (1 # 2)) / qz n)%Qc.
Definition quantiles (n : Z) (Q : Qc -> val) : vec := map (fun e => Q (member_level n e)) (zrange 0 n).
Definition same_order (a b : list Qc) : Prop := forall i j, 0 <= i < zlen a -> 0 <= j < zlen a -> (qnth a i < qnth a j)%Qc -> (qnth b i <= qnth b j)%Qc.
(** what becomes of the members vs: the quantiles in the order of the members; the members, if the law does not give all quantiles *)
Definition outcome (Q : Qc -> val) (vs ws : vec) : Prop :=
  (Exists missing (quantiles (zlen vs) Q) -> ws = vs) /\
  (forall qs, quantiles (zlen vs) Q = map Fin qs -> no_missing qs ->
    (Exists missing vs -> ws = map Fin qs) /\
    (forall raw, vs = map Fin raw -> no_missing raw -> exists cal, ws = map Fin cal /\ Permutation cal qs /\ same_order raw cal)).
(** the parameters, when all of them are present *)
Fixpoint known (par : vec) : option (list Qc) :=
  match par with
  | [] => Some []
  | Fin q :: t => if Qc_eq_dec q missing_number then None else option_map (cons q) (known t)
  | _ => None
  end.
(** the law of the gaussian calibrator: normal with the mean of the ensemble and the standard deviation exp(a + b spread) *)
Definition gaussian_law (ex : Qc -> Qc) (nq : val -> val -> val -> val) (par : vec) (mean spread p : Qc) : val :=
  match known par with
  | Some (a :: b :: _) => if Qclt_le_dec 0 mean then nq (Fin mean) (Fin (ex (a + b * spread)%Qc)) (Fin p) else Fin missing_number
  | _ => Fin missing_number
  end.
(** the functions of the mathematical library on numbers *)
Definition on_numbers1 (f : val -> val) (g : Qc -> Qc) : Prop := forall x, f (Fin x) = Fin (g x).
Definition on_numbers2 (f : val -> val -> val) (g : Qc -> Qc -> Qc) : Prop := forall x y, f (Fin x) (Fin y) = Fin (g x y).
Definition positive (f : Qc -> Qc) : Prop := forall x, (0 < f x)%Qc.
(** the points of a neighbourhood, with their members *)
Definition hood (d : dims) (size y x : Z) (l : list (Z * Z * Z)) : Prop :=
  NoDup l /\ forall y' x' e, In (y', x', e) l <-> within d y' x' e /\ Z.abs (y' - y) <= size /\ Z.abs (x' - x) <= size.

(** Student's t-distribution: [tc] its distribution function, [tq] its quantiles, for a number of degrees of freedom *)
Definition student (tc tq : Qc -> Qc -> Qc) : Prop :=
  (forall tau x, 0 < tc tau x < 1)%Qc /\ (forall tau x y, (x < y)%Qc -> (tc tau x < tc tau y)%Qc) /\ (forall tau x, tc tau (- x) = 1 - tc tau x)%Qc /\ (forall tau p, (0 < p < 1)%Qc -> tc tau (tq tau p) = p).
(** powers of positive numbers *)
Definition power (pw : Qc -> Qc -> Qc) : Prop := (forall x y, (0 < x)%Qc -> (0 < pw x y)%Qc) /\ (forall x y, (0 < x)%Qc -> y <> 0%Qc -> pw (pw x (1 / y)) y = x)%Qc.
Definition qabs (x : Qc) : Qc := if Qclt_le_dec x 0 then (- x)%Qc else x.
(** the parameters of the Box-Cox t-distribution, as documented: mu, sigma, nu and tau *)
Definition bct_parameters (ex : Qc -> Qc) (pw : Qc -> Qc -> Qc) (par : vec) (mean std : Qc) : option (Qc * Qc * Qc * Qc) :=
  match known par with
  | Some (a :: b :: c :: d :: e :: f :: g :: _) => Some (a + b * mean, ex (c + d * pw std (Q2Qc (1 # 3))), e + f * mean, ex (if Qclt_le_dec (qz 10) g then qz 10 else g))%Qc
  | _ => None
  end.
(** the z-score of a value, and the probability that a value of the distribution has a smaller z-score: the t-distribution is cut where 1 + sigma nu z becomes negative *)
Definition z_score (lg : Qc -> Qc) (pw : Qc -> Qc -> Qc) (mu sigma nu y : Qc) : Qc := if Qc_eq_dec nu 0 then (lg (y / mu) / sigma)%Qc else ((pw (y / mu) nu - 1) / (sigma * nu))%Qc.
Definition truncated_t (tc : Qc -> Qc -> Qc) (sigma nu tau z : Qc) : Qc :=
  if Qc_eq_dec nu 0 then tc tau z
  else if Qclt_le_dec 0 nu then ((tc tau z - tc tau (- (1 / (sigma * nu)))) / (1 - tc tau (- (1 / (sigma * nu)))))%Qc
  else (tc tau z / tc tau (- (1 / (sigma * nu))))%Qc.
(** the quantile of level p: the value whose z-score has probability p *)
Definition bct_quantile (lg : Qc -> Qc) (pw : Qc -> Qc -> Qc) (tc : Qc -> Qc -> Qc) (mu sigma nu tau p : Qc) (v : Qc) : Prop :=
  (0 < v)%Qc /\ truncated_t tc sigma nu tau (z_score lg pw mu sigma nu v) = p.
(** the law of the calibrator *)
Definition bct_level (tc : Qc -> Qc -> Qc) (sigma nu tau p : Qc) : Qc :=
  if Qc_eq_dec nu 0 then p else let B := tc tau (1 / (sigma * qabs nu))%Qc in if Qclt_le_dec 0 nu then (1 - (1 - p) * B)%Qc else (p * B)%Qc.
Definition bct_law (ex : Qc -> Qc) (pw tc tq : Qc -> Qc -> Qc) (par : vec) (mean std p : Qc) : val :=
  match bct_parameters ex pw par mean std with
  | Some (mu, sigma, nu, tau) =>
      let z := tq tau (bct_level tc sigma nu tau p) in
      Fin (if Qc_eq_dec nu 0 then mu * ex (sigma * z) else mu * pw (1 + sigma * nu * z) (1 / nu))%Qc
  | None => Fin missing_number
  end.
Definition capped (limit x : Qc) : Qc := if Qclt_le_dec limit x then limit else x.
Definition on_nonneg2 (f : val -> val -> val) (g : Qc -> Qc -> Qc) : Prop := forall x y, (0 <= x)%Qc -> f (Fin x) (Fin y) = Fin (g x y).

(** zero-adjusted gamma distribution, as documented: the probability P0 of no precipitation, and the shape and scale of the gamma distribution of the amounts *)
Definition zaga_parameters (ex : Qc -> Qc) (pw : Qc -> Qc -> Qc) (par : vec) (mean frac : Qc) : option (Qc * Qc * Qc) :=
  match known par with
  | Some (mua :: mub :: sa :: sb :: a :: b :: c :: d :: _) =>
      let root := pw mean (Q2Qc (1 # 3)) in
      let logit := (a + b * mean + c * frac + d * root)%Qc in
      let mu := ex (mua + mub * root)%Qc in let sigma := ex (sa + sb * mean)%Qc in
      if Qc_eq_dec logit missing_number then None else Some (ex logit / (ex logit + 1), 1 / (sigma * sigma), sigma * sigma * mu)%Qc
  | _ => None
  end.
(** [gc] and [gq]: distribution function and quantiles of the gamma distribution *)
Definition gamma_functions (gc gq : Qc -> Qc -> Qc -> Qc) : Prop := forall shape scale, (0 < shape)%Qc -> (0 < scale)%Qc ->
  (forall x, (0 < x)%Qc -> 0 <= gc shape scale x <= 1)%Qc /\ (forall x y, (0 < x <= y)%Qc -> (gc shape scale x <= gc shape scale y)%Qc) /\
  (forall p, (0 <= p < 1)%Qc -> (0 <= gq shape scale p)%Qc /\ (gq shape scale p <= 0 <-> p <= 0)%Qc /\ forall x, (0 < x)%Qc -> (gq shape scale p <= x <-> p <= gc shape scale x)%Qc).
(** the probability of at most x, and the quantiles *)
Definition zaga_probability (gc : Qc -> Qc -> Qc -> Qc) (P0 shape scale x : Qc) : Qc :=
  if Qclt_le_dec x 0 then 0%Qc else if Qc_eq_dec x 0 then P0 else (P0 + (1 - P0) * gc shape scale x)%Qc.
Definition zaga_quantile (gq : Qc -> Qc -> Qc -> Qc) (P0 shape scale p : Qc) : Qc := if Qclt_le_dec p P0 then 0%Qc else gq shape scale ((p - P0) / (1 - P0))%Qc.
Definition zaga_law (ex : Qc -> Qc) (pw : Qc -> Qc -> Qc) (gq : Qc -> Qc -> Qc -> Qc) (par : vec) (mean frac p : Qc) : val :=
  match zaga_parameters ex pw par mean frac with Some (P0, shape, scale) => Fin (zaga_quantile gq P0 shape scale p) | None => Fin missing_number end.
Definition on_numbers3 (f : val -> val -> val -> val) (g : Qc -> Qc -> Qc -> Qc) : Prop := forall x y z, f (Fin x) (Fin y) (Fin z) = Fin (g x y z).
(** the fraction of the amounts that are at most the threshold *)
Definition fraction (thr : Qc) (l : list Qc) : Qc := (qz (zlen (filter (fun q => if Qclt_le_dec thr q then false else true) l)) / qlen l)%Qc.
(** the amount of a member in the window of w times that ends at t *)
Definition amount (fs : list field) (w t : Z) (c : Z * Z * Z) (q : Qc) : Prop :=
  exists s, (forall tt, t - w < tt <= t -> element fs tt (fst (fst c)) (snd (fst c)) (snd c) (Fin (s tt)) /\ s tt <> missing_number) /\ q = qsum (map s (zrange (t - w + 1) (t + 1))).
(** a missing value in the window of a member of the neighbourhood *)
Definition gap (d : dims) (fs : list field) (size w t y x : Z) : Prop :=
  exists y' x' e tt v, within d y' x' e /\ Z.abs (y' - y) <= size /\ Z.abs (x' - x) <= size /\ t - w < tt <= t /\ element fs tt y' x' e v /\ missing v.
Definition no_negative (fs : list field) : Prop := forall t y x e q, element fs t y x e (Fin q) -> q <> missing_number -> (0 <= q)%Qc.
(** what the probability of precipitation above a threshold is, and a quantile of precipitation *)
Definition pop_value (ex : Qc -> Qc) (pw : Qc -> Qc -> Qc) (gc : Qc -> Qc -> Qc -> Qc) (par : vec) (mean frac thr : Qc) : val :=
  match zaga_parameters ex pw par mean frac with Some (P0, shape, scale) => Fin (1 - zaga_probability gc P0 shape scale thr)%Qc | None => Fin missing_number end.
