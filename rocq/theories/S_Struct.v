(** Specification vocabulary for the structure functions. *)
From Verif Require Import Base RBase M_Geo M_Struct.

(** a point with the given 3D coordinates *)
Definition placed (p : point) (x y z : Qc) : Prop := p_x p = Fin x /\ p_y p = Fin y /\ p_z p = Fin z.
(** straight-line distance between two points *)
Definition apart (p q : point) (d : R) : Prop :=
  exists x1 y1 z1 x2 y2 z2, placed p x1 y1 z1 /\ placed q x2 y2 z2 /\
  d = sqrt ((qr x1 - qr x2) ^ 2 + (qr y1 - qr y2) ^ 2 + (qr z1 - qr z2) ^ 2)%R.
(** difference of two elevations or land fractions; none if one is missing *)
Definition diff (a b : val) : option R :=
  match a, b with Fin x, Fin y => Some (qr x - qr y)%R | _, _ => None end.
(** the first difference is at most as large as the second *)
Definition no_larger (a b : option R) : Prop :=
  match a, b with None, None => True | Some x, Some y => (Rabs x <= Rabs y)%R | _, _ => False end.

(** shape of the correlation functions: exp(-u^2/2) and 1/(1+u^2/2) *)
Definition shape (k : kind) (u : R) : R :=
  match k with
  | Barnes => exp (- (u * u) / 2)
  | Powerlaw => 1 / (1 + u * u / 2)
  | Soar => (1 + u) * exp (- u)
  | Toar => (1 + u + u * u / 3) * exp (- u)
  | Linear => 0
  end%R.
(** the factor of a difference under a length scale; scale 0 disables it *)
Definition factor (k : kind) (len : R) (o : option R) : R :=
  match o with
  | None => 1%R
  | Some x => if Req_EM_T len 0 then 1%R else shape k (x / len)
  end.
(** Cressman's function (1-u^2)/(1+u^2) up to distance 1 *)
Definition cress (u : R) : R := if Rlt_dec u 1 then ((1 - u * u) / (1 + u * u))%R else 0%R.
Definition cfactor (len : R) (o : option R) : R :=
  match o with
  | None => 1%R
  | Some x => if Req_EM_T len 0 then 1%R else cress (x / len)
  end.

(** values a structure can have been built with *)
Inductive built : sfun -> Prop :=
| built_base k h v w m s : mk_base k h v w m = Ok s -> built s
| built_spatial k g h v w m s : mk_spatial k g h v w m = Ok s -> built s
| built_cressman h v w s : mk_cressman h v w = Ok s -> built s
| built_multiple h v w s : built h -> built v -> built w -> mk_multiple h v w = Ok s -> built s
| built_cross t d s : built t -> mk_cross t d = Ok s -> built s.
(** a missing or nonnegative cut-off distance *)
Definition cutoff_ok (m : val) : Prop := m = NaN \/ exists q, m = Fin q /\ (0 <= q)%Qc.

(** LinearStructure: 1 - (1 - m) min(|x|, 1) for a difference x with smallest correlation m *)
Definition lin (m : R) (o : option R) : R :=
  match o with None => 1%R | Some x => (1 - (1 - m) * Rmin (Rabs x) 1)%R end.
(** a factor that cannot be negative: the difference is missing or zero, or its scale is 0 *)
Definition level (len : R) (o : option R) : Prop := o = None \/ len = 0%R \/ o = Some 0%R.
(** structures whose spatially varying horizontal scales are all present, and whose smallest correlation
    lies strictly between 0 and 1 *)
Fixpoint solid (s : sfun) : Prop :=
  match s with
  | SBase b => b_spatial b = true ->
      (forall i j x, get2 (b_h b) i j = Ok x -> exists q, x = Fin q) /\ exists m, b_min b = RF m /\ (0 < m < 1)%R
  | SCressman _ _ _ => True
  | SMultiple h v w => solid h /\ solid v /\ solid w
  | SCross t _ => solid t
  end.
Definition has_place (p : point) : Prop := exists x y z, placed p x y z.
