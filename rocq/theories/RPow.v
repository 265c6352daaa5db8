(** pow and atan2 of the C library over the values of RBase. *)
From Coq Require Import Reals.
From Verif Require Import RBase.
Local Open Scope Z_scope.

(** [y] is an odd integer / an integer *)
Definition Ris_int (y : R) : bool := Reqb (IZR (Int_part y)) y.
Definition Ris_odd (y : R) : bool := Ris_int y && Z.odd (Int_part y).
(** pow(x, y) with its IEEE results at 0, infinities, NaN and negative bases (C17 F.10.4.4); zeros have no sign
    here, a zero base counts as +0 *)
Definition rpow (a b : rv) : rv :=
  match a, b with
  | _, RF y =>
      if Reqb y 0 then rz 1 else
      match a with
      | RNaN => RNaN
      | RPInf => if Rltb y 0 then rz 0 else RPInf
      | RNInf => if Rltb y 0 then rz 0 else if Ris_odd y then RNInf else RPInf
      | RF x =>
          if Rltb 0 x then RF (Rpower x y)
          else if Reqb x 0 then (if Rltb y 0 then RPInf else rz 0)
          else if Ris_int y then RF (powerRZ x (Int_part y)) else RNaN
      end
  | RF x, RNaN => if Reqb x 1 then rz 1 else RNaN
  | _, RNaN => RNaN
  | RNaN, _ => RNaN
  | RF x, RPInf => if Reqb (Rabs x) 1 then rz 1 else if Rltb (Rabs x) 1 then rz 0 else RPInf
  | RF x, RNInf => if Reqb (Rabs x) 1 then rz 1 else if Rltb (Rabs x) 1 then RPInf else rz 0
  | _, RPInf => RPInf
  | _, RNInf => rz 0
  end.
(** atan2(y, x); [ny], [nx] tell the sign of a zero argument *)
Definition sgn_pi (neg : bool) : R := if neg then (- PI)%R else PI.
Definition Ratan2 (ny nx : bool) (y x : R) : R :=
  if Rltb 0 x then atan (y / x)
  else if Rltb x 0 then
    (if Rltb 0 y then (atan (y / x) + PI)%R else if Rltb y 0 then (atan (y / x) - PI)%R else sgn_pi ny)
  else if Rltb 0 y then (PI / 2)%R
  else if Rltb y 0 then (- (PI / 2))%R
  else if nx then sgn_pi ny else 0%R.
Definition ratan2 (ny nx : bool) (a b : rv) : rv :=
  match a, b with
  | RNaN, _ | _, RNaN => RNaN
  | RF y, RF x => RF (Ratan2 ny nx y x)
  | RPInf, RF _ => RF (PI / 2)%R
  | RNInf, RF _ => RF (- (PI / 2))%R
  | RPInf, RPInf => RF (PI / 4)%R
  | RNInf, RPInf => RF (- (PI / 4))%R
  | RPInf, RNInf => RF (3 * (PI / 4))%R
  | RNInf, RNInf => RF (- (3 * (PI / 4)))%R
  | RF _, RPInf => RF 0%R
  | RF y, RNInf => RF (sgn_pi (Rltb y 0 || (Reqb y 0 && ny)))
  end.
