(** float / double values for the code that uses exp, log, pow, sqrt and trigonometric functions. *)
From Coq Require Export Reals Qreals.
From Verif Require Export Base.
#[global] Open Scope Z_scope.

(** Exact real arithmetic: finite floats are real numbers; NaN and infinities explicit.
    Not modelled: rounding, overflow to infinity, underflow to zero, signed zero. *)
Inductive rv := RNaN | RPInf | RNInf | RF (x : R).

Definition rz (n : Z) : rv := RF (IZR n).
(** the real value of a rational one *)
Definition qr (q : Qc) : R := Q2R (this q).
Definition v2r (v : val) : rv :=
  match v with NaN => RNaN | PInf => RPInf | NInf => RNInf | Fin q => RF (qr q) end.
(** gridpp::MV and gridpp::is_valid, include/gridpp.h:49, src/api/util.cpp:16-18 *)
Definition RMV : rv := RNaN.
Definition r_valid (v : rv) : bool := match v with RF _ => true | _ => false end.

Definition Rltb (x y : R) : bool := if Rlt_dec x y then true else false.
Definition Reqb (x y : R) : bool := if Req_EM_T x y then true else false.
Definition rltb (a b : rv) : bool :=
  match a, b with
  | RNaN, _ | _, RNaN => false
  | RF x, RF y => Rltb x y
  | RNInf, RNInf => false | RNInf, _ => true | _, RNInf => false
  | RPInf, _ => false | _, RPInf => true
  end.
Definition reqb (a b : rv) : bool :=
  match a, b with
  | RF x, RF y => Reqb x y
  | RNInf, RNInf | RPInf, RPInf => true
  | _, _ => false
  end.
Definition rleb (a b : rv) : bool := rltb a b || reqb a b.
Definition rneg (a : rv) : rv :=
  match a with RNaN => RNaN | RPInf => RNInf | RNInf => RPInf | RF x => RF (- x)%R end.
Definition radd (a b : rv) : rv :=
  match a, b with
  | RNaN, _ | _, RNaN => RNaN
  | RPInf, RNInf | RNInf, RPInf => RNaN
  | RPInf, _ | _, RPInf => RPInf
  | RNInf, _ | _, RNInf => RNInf
  | RF x, RF y => RF (x + y)%R
  end.
Definition rsub (a b : rv) : rv := radd a (rneg b).
Definition rinf (neg : bool) : rv := if neg then RNInf else RPInf.
Definition rmul (a b : rv) : rv :=
  match a, b with
  | RNaN, _ | _, RNaN => RNaN
  | RF x, RF y => RF (x * y)%R
  | RPInf, RPInf | RNInf, RNInf => RPInf
  | RPInf, RNInf | RNInf, RPInf => RNInf
  | RPInf, RF y | RF y, RPInf => if Reqb y 0 then RNaN else rinf (Rltb y 0)
  | RNInf, RF y | RF y, RNInf => if Reqb y 0 then RNaN else rinf (Rltb 0 y)
  end.
Definition rdiv (a b : rv) : rv :=
  match a, b with
  | RNaN, _ | _, RNaN => RNaN
  | RF x, RF y => if Reqb y 0 then (if Reqb x 0 then RNaN else rinf (Rltb x 0)) else RF (x / y)%R
  | RF _, _ => RF 0%R
  | RPInf, RF y => rinf (Rltb y 0)
  | RNInf, RF y => rinf (negb (Rltb y 0))
  | _, _ => RNaN
  end.
Definition rabs (a : rv) : rv :=
  match a with RNaN => RNaN | RPInf | RNInf => RPInf | RF x => RF (Rabs x) end.
(** exp, log and sqrt of the C library, with their IEEE results outside the domain *)
Definition rexp (a : rv) : rv :=
  match a with RNaN => RNaN | RPInf => RPInf | RNInf => RF 0%R | RF x => RF (exp x) end.
Definition rlog (a : rv) : rv :=
  match a with
  | RNaN | RNInf => RNaN
  | RPInf => RPInf
  | RF x => if Rltb 0 x then RF (ln x) else if Reqb x 0 then RNInf else RNaN
  end.
Definition rsqrt (a : rv) : rv :=
  match a with
  | RNaN | RNInf => RNaN
  | RPInf => RPInf
  | RF x => if Rltb x 0 then RNaN else RF (sqrt x)
  end.
