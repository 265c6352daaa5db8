(** Model of what the training of the client's gaussian and zaga calibrators minimises: src/client/Calibrator/{Gaussian,Zaga}.cpp.  As in M_CDist; also not given by the code and
    arguments here: log [lg] and the densities of Boost's distributions, which are taken not to throw.  The minimiser is that of GSL and not modelled; the predictors of training
    are zaga_train_predictors of M_CDist, or the mean and standard deviation by calculate_stat.  Numbers passed as double are exact. *)
From Verif Require Import Base M_Stat M_COpt M_CUtil M_CCal M_CCal2 M_CGradient M_CDist.
Local Open Scope Z_scope.

(** CalibratorGaussian::getPdf, Gaussian.cpp:192-208; [nd mu sigma x]: the density of the normal distribution *)
Definition gaussian_pdf (ex : val -> val) (nd : val -> val -> val -> val) (mean spread : val) (par : vec) (threshold : val) : res val :=
  sa <- par_get par 0 ;; sb <- par_get par 1 ;;
  let sigma := ex (vadd sa (vmul sb spread)) in
  if vleb mean (fz 0) || vleb sigma (fz 0) then Ok CMV else
  if negb (cvalid mean) || negb (cvalid sigma) then Ok CMV else
  Ok (nd mean sigma threshold).
(** Gaussian.cpp:318-321, Zaga.cpp:575-578 *)
Definition log_density (lg : val -> val) (pdf : val) : res val :=
  let pdf := if veqb pdf (fz 0) || negb (cvalid pdf) then fq (1 # 100000) else pdf in
  _ <- assert_ (vltb (fz 0) pdf) ;; Ok (lg pdf).
(** CalibratorGaussian::my_f, Gaussian.cpp:299-325, for observations with their means and spreads *)
Definition gaussian_objective (ex lg : val -> val) (nd : val -> val -> val -> val) (data : list (val * val * val)) (par : vec) : res val :=
  total <- foldM (fun total d => let '(obs, mean, spread) := d in pdf <- gaussian_pdf ex nd mean spread par obs ;; l <- log_density lg pdf ;; Ok (vadd total l)) (fz 0) data ;;
  Ok (vneg total).
(** CalibratorZaga::getPdf, Zaga.cpp:355-383; [gd shape scale x]: the density of the gamma distribution *)
Definition zaga_pdf (ex : val -> val) (pw : val -> val -> val) (gd : val -> val -> val -> val) (mean frac : val) (par : vec) (threshold : val) : res val :=
  p0 <- zaga_p0 ex pw mean frac par ;;
  g <- zaga_gamma ex pw mean par ;;
  match g with
  | None => Ok CMV
  | Some (shape, scale) => Ok (vmul (vsub (fz 1) p0) (gd shape scale threshold))
  end.
(** CalibratorZaga::my_f, Zaga.cpp:524-584, for observations with their means and fractions *)
Definition zaga_objective (ex lg : val -> val) (pw : val -> val -> val) (gd : val -> val -> val -> val) (data : list (val * val * val)) (par : vec) : res val :=
  total <- foldM (fun total d => let '(obs, mean, frac) := d in
    p0 <- zaga_p0 ex pw mean frac par ;;
    l <- (if veqb obs (fz 0) then _ <- assert_ (vltb (fz 0) p0) ;; Ok (lg p0) else pdf <- zaga_pdf ex pw gd mean frac par obs ;; log_density lg pdf) ;;
    Ok (vadd total l)) (fz 0) data ;;
  Ok (vneg total).
