(** Model of the scalar transforms in src/api/transform.cpp (the array versions are in M_TfVec). Arithmetic is exact
    (RBase); float and double are not distinguished. *)
From Coq Require Import Reals.
From Verif Require Import RBase RPow.
Local Open Scope Z_scope.

(** Log::forward, transform.cpp:85-90 *)
Definition log_forward (value : rv) : rv := if r_valid value then rlog value else RMV.
(** Log::backward, 91-96 *)
Definition log_backward (value : rv) : rv := if r_valid value then rexp value else RMV.
(** BoxCox::forward, 100-109 *)
Definition boxcox_forward (threshold value : rv) : rv :=
  if negb (r_valid value) then RMV else
  let value := if rleb value (rz 0) then rz 0 else value in
  if reqb threshold (rz 0) then rlog value
  else rdiv (rsub (rpow value threshold) (rz 1)) threshold.
(** BoxCox::backward, 110-125 *)
Definition boxcox_backward (threshold value : rv) : rv :=
  if negb (r_valid value) then RMV else
  let r := if reqb threshold (rz 0) then rexp value
           else let lim := rdiv (rz (-1)) threshold in
                let value := if rltb value lim then lim else value in
                rpow (radd (rz 1) (rmul threshold value)) (rdiv (rz 1) threshold) in
  if rleb r (rz 0) then rz 0 else r.
(** StartedBoxCox::StartedBoxCox, 126-132 *)
Record started := { st_threshold : rv; st_scaling : rv }.
Definition mk_started (threshold scaling_factor : rv) : res started :=
  if negb (r_valid threshold) || rleb threshold (rz 0) then Throw InvalidArgument
  else if negb (r_valid scaling_factor) || rleb scaling_factor (rz 0) then Throw InvalidArgument
  else Ok {| st_threshold := threshold; st_scaling := scaling_factor |}.
(** StartedBoxCox::forward, 133-142 *)
Definition started_forward (s : started) (value : rv) : rv :=
  if negb (r_valid value) || rleb (st_threshold s) (rz 0) then RMV else
  let value := if rltb value (rz 0) then rz 0 else value in
  if rleb value (st_scaling s) then value
  else rmul (st_scaling s)
         (radd (rz 1) (rdiv (rsub (rpow (rdiv value (st_scaling s)) (st_threshold s)) (rz 1)) (st_threshold s))).
(** StartedBoxCox::backward, 143-154 *)
Definition started_backward (s : started) (value : rv) : rv :=
  if negb (r_valid value) || rleb (st_threshold s) (rz 0) then RMV else
  let r := if rleb value (st_scaling s) then value
           else rmul (st_scaling s)
                  (rpow (radd (rz 1) (rmul (rdiv (st_threshold s) (st_scaling s)) (rsub value (st_scaling s))))
                        (rdiv (rz 1) (st_threshold s))) in
  if rltb r (rz 0) then rz 0 else r.
(** Boost's gamma and standard normal distribution functions; they throw outside their domains *)
Record boost := {
  gamma_cdf : rv -> rv -> rv -> res rv;       (* shape, scale, x *)
  gamma_quantile : rv -> rv -> rv -> res rv;  (* shape, scale, p *)
  norm_cdf : rv -> res rv;
  norm_quantile : rv -> res rv }.
(** Gamma::Gamma, 155-165 *)
Record gamma := { ga_shape : rv; ga_scale : rv; ga_tolerance : rv }.
Definition mk_gamma (shape scale tolerance : rv) : res gamma :=
  if negb (r_valid shape) || rleb shape (rz 0) then Throw InvalidArgument
  else if negb (r_valid scale) || rleb scale (rz 0) then Throw InvalidArgument
  else if negb (r_valid tolerance) || rltb tolerance (rz 0) then Throw InvalidArgument
  else Ok {| ga_shape := shape; ga_scale := scale; ga_tolerance := tolerance |}.
(** Gamma::forward, 166-172 *)
Definition gamma_forward (B : boost) (g : gamma) (value : rv) : res rv :=
  if negb (r_valid value) then Ok RMV else
  cdf <- gamma_cdf B (ga_shape g) (ga_scale g) (radd value (ga_tolerance g)) ;; norm_quantile B cdf.
(** Gamma::backward, 173-179 *)
Definition gamma_backward (B : boost) (g : gamma) (value : rv) : res rv :=
  if negb (r_valid value) then Ok RMV else
  cdf <- norm_cdf B value ;; q <- gamma_quantile B (ga_shape g) (ga_scale g) cdf ;; Ok (rsub q (ga_tolerance g)).
(** Identity::forward and backward, 180-185 *)
Definition identity_forward (value : rv) : rv := value.
Definition identity_backward (value : rv) : rv := value.
