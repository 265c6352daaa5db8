(** Model of the transforms of the client's optimal interpolation, src/client/Calibrator/Oi.cpp.  Arithmetic is exact (RBase); the missing value is the number -999. *)
From Coq Require Import Reals.
From Verif Require Import RBase RPow.
Local Open Scope Z_scope.

(** CalibratorOi::transform, Oi.cpp:1150-1160 *)
Definition oi_transform (boxcox : bool) (lambda value : rv) : rv :=
  if negb boxcox then value else
  let value := if rleb value (rz 0) then rz 0 else value in
  if reqb lambda (rz 0) then rlog value else rdiv (rsub (rpow value lambda) (rz 1)) lambda.
(** CalibratorOi::invTransform, Oi.cpp:1162-1178 *)
Definition oi_inverse (boxcox : bool) (lambda value : rv) : rv :=
  if negb boxcox then value else
  let r := if reqb lambda (rz 0) then rexp value
           else let lim := rdiv (rz (-1)) lambda in
                let value := if rltb value lim then lim else value in
                rpow (radd (rz 1) (rmul lambda value)) (rdiv (rz 1) lambda) in
  if rleb r (rz 0) then rz 0 else r.
(** Util::isValid, Util.h:43-45, of such values *)
Definition rc_valid (v : rv) : bool := match v with RF x => negb (Reqb x (-999)) | _ => false end.
(** what becomes of an observation, Oi.cpp:245 with 258: the value used, if the station is used *)
Definition oi_observation (boxcox : bool) (lambda value : rv) : option rv := let v := oi_transform boxcox lambda value in if rc_valid v then Some v else None.
