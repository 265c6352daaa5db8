(** wind_direction of src/api/wind.cpp in binary32 arithmetic (round to nearest even, gradual underflow, no overflow). *)
From Coq Require Import Reals.
From Flocq Require Import Core.
From Verif Require Import RBase M_Diag.
Local Open Scope R_scope.

(** rounding to binary32 and the binary32 numbers *)
Definition rnd32 (x : R) : R := round radix2 (FLT_exp (-149) 24) ZnearestE x.
Definition is32 (x : R) : Prop := generic_format radix2 (FLT_exp (-149) 24) x.
(** wind_direction, wind.cpp:20-26; [a] is what std::atan2(-xwind, -ywind) returned. Multiplication, division and
    addition are in float: 180 and 360 are converted, gridpp::pi is a float. *)
Definition wind_direction32 (a : R) : R :=
  let dir := rnd32 (rnd32 (a * 180) / gpi) in
  if Rltb dir 0 then rnd32 (dir + 360) else dir.
