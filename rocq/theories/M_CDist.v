(** Model of the client's calibrators that fit distributions: src/client/Calibrator/{Gaussian,Bct,Zaga}.cpp.  As in M_CCal; the parallel loops over points run one
    after the other here (see DESIGN.md for the races).  What the parameter file has for a time and a point is given by a function.  Not given by the code, and arguments
    here: exp [ex], pow [pw] and the functions of Boost's distributions, which are taken not to throw. *)
From Verif Require Import Base M_Stat M_COpt M_CUtil M_CCal M_CCal2 M_CGradient.
Local Open Scope Z_scope.

(** the loops over points *)
Definition points (d : dims) : list (Z * Z) := flat_map (fun i => map (fun j => (i, j)) (zrange 0 (d_x d))) (zrange 0 (d_y d)).
(** the loops over members and the points of a neighbourhood, Gaussian.cpp:54-58 and Zaga.cpp:114-117 *)
Definition around (d : dims) (size i j : Z) : list (Z * Z * Z) := flat_map (fun e => map (fun p => (fst p, snd p, e)) (square (d_y d) (d_x d) size i j)) (zrange 0 (d_e d)).
(** Gaussian.cpp:83: the level of a member *)
Definition level (nEns e : Z) : val := vdiv (vadd (fz e) (fq (1 # 2))) (fz nEns).
(** Gaussian.cpp:68-103, Bct.cpp:77-112 and Zaga.cpp:143-205: the members become the quantiles of the levels in the order of the raw members, unless one is invalid *)
Definition write_members (d : dims) (f : field) (i j : Z) (vs : vec) : res field := foldM (fun f e => v <- znth vs e ;; f_set f i j e v) f (zrange 0 (d_e d)).
Definition replace_members (sort_pairs : list (val * Z) -> list (val * Z)) (d : dims) (inv : val -> res val) (f : field) (i j : Z) : res field :=
  raw <- f_ens f i j ;;
  '(f, isValid) <- foldM (fun st e => let '(f, ok) := st in v <- inv (level (d_e d) e) ;; f <- f_set f i j e v ;; Ok (f, ok && cvalid v)) (f, true) (zrange 0 (d_e d)) ;;
  if isValid : bool then cal <- f_ens f i j ;; cal <- shuffle sort_pairs raw cal ;; write_members d f i j cal
  else write_members d f i j raw.
(** Gaussian.cpp:104-109: the members are written back *)
Definition keep_members (d : dims) (f : field) (i j : Z) : res field := raw <- f_ens f i j ;; write_members d f i j raw.

(** CalibratorGaussian::getInvCdf, Gaussian.cpp:113-147; [nq mu sigma p]: the quantile of the normal distribution *)
Definition gaussian_inv (ex : val -> val) (nq : val -> val -> val -> val) (mean spread : val) (par : vec) (quantile : val) : res val :=
  if vltb quantile (fz 0) || vleb (fz 1) quantile then Ok CMV else
  if negb (cvalid mean) || negb (cvalid spread) then Ok CMV else
  if vltb mean (fz 0) || vltb spread (fz 0) then Ok CMV else
  if negb (par_valid par) then Ok CMV else
  sa <- par_get par 0 ;; sb <- par_get par 1 ;;
  let sigma := ex (vadd sa (vmul sb spread)) in
  if vleb mean (fz 0) || vleb sigma (fz 0) then Ok CMV else
  if negb (cvalid mean) || negb (cvalid sigma) then Ok CMV else
  let value := nq mean sigma quantile in Ok (if cvalid value then value else CMV).
(** CalibratorGaussian::getCdf, Gaussian.cpp:148-187; [nc mu sigma x]: the cumulative distribution function *)
Definition gaussian_cdf (ex : val -> val) (nc : val -> val -> val -> val) (mean spread : val) (par : vec) (threshold : val) : res val :=
  if negb (cvalid threshold) || negb (cvalid mean) || negb (cvalid spread) then Ok CMV else
  if vltb mean (fz 0) || vltb spread (fz 0) then Ok CMV else
  if negb (par_valid par) then Ok CMV else
  sa <- par_get par 0 ;; sb <- par_get par 1 ;;
  let sigma := ex (vadd sa (vmul sb spread)) in
  if vleb mean (fz 0) || vleb sigma (fz 0) then Ok CMV else
  if negb (cvalid mean) || negb (cvalid sigma) then Ok CMV else
  let shape := vdiv (fz 1) (vmul sigma sigma) in let scale := vmul (vmul sigma sigma) mean in
  if negb (cvalid scale) || negb (cvalid shape) then Ok CMV else
  let cdf := nc mean sigma threshold in
  if negb (cvalid cdf) then Ok CMV else
  _ <- assert_ (vleb cdf (fz 1)) ;; _ <- assert_ (vleb (fz 0) cdf) ;; Ok cdf.
(** Gaussian.cpp:48-67 *)
Definition gaussian_sums (d : dims) (size : Z) (f : field) (i j : Z) : res (val * val * Z) :=
  foldM (fun st c => let '(total, total2, counter) := st in let '(ii, jj, e) := c in
    value <- f_get f ii jj e ;;
    Ok (if cvalid value then (vadd total value, vadd total2 (vmul value value), counter + 1) else st)) (fz 0, fz 0, 0) (around d size i j).
(** CalibratorGaussian::calibrateCore for a point, Gaussian.cpp:47-109 *)
Definition gaussian_point (sort_pairs : list (val * Z) -> list (val * Z)) (E : ext) (ex : val -> val) (nq : val -> val -> val -> val) (d : dims) (size : Z) (par : vec) (f : field) (i j : Z) : res field :=
  '(total, total2, counter) <- gaussian_sums d size f i j ;;
  if 0 <? counter then
    let ensMean := vdiv total (fz counter) in
    let ensSpread := vsqrt E (vsub (vdiv total2 (fz counter)) (vmul ensMean ensMean)) in
    replace_members sort_pairs d (gaussian_inv ex nq ensMean ensSpread par) f i j
  else keep_members d f i j.
(** Gaussian.cpp:14-19 and 23-112 *)
Definition gaussian_calibrator (sort_pairs : list (val * Z) -> list (val * Z)) (E : ext) (ex : val -> val) (nq : val -> val -> val -> val) (size : Z) (pars : Z -> Z -> Z -> vec) (d : dims)
    (fields : list field) : res (list field) :=
  if size <? 0 then Abort else
  each_time d (fun t => f <- znth fields t ;; foldM (fun f c => let '(i, j) := c in gaussian_point sort_pairs E ex nq d size (pars t i j) f i j) f (points d)).

(** CalibratorBct::getInvCdf, Bct.cpp:124-193; [tc tau x] and [tq tau p]: cumulative distribution function and quantile of Student's t-distribution *)
Definition bct_inv (ex : val -> val) (pw : val -> val -> val) (tc tq : val -> val -> val) (mean std : val) (par : vec) (quantile : val) : res val :=
  if vltb quantile (fz 0) || vleb (fz 1) quantile then Ok CMV else
  if negb (cvalid mean) || vltb mean (fz 0) || negb (cvalid std) || vltb std (fz 0) then Ok CMV else
  if negb (par_valid par) then Ok CMV else
  if veqb quantile (fz 0) then Ok (fz 0) else
  a <- par_get par 0 ;; b <- par_get par 1 ;; c <- par_get par 2 ;; d <- par_get par 3 ;; e <- par_get par 4 ;; f <- par_get par 5 ;; g <- par_get par 6 ;;
  let mu := vadd a (vmul b mean) in
  let sigma := ex (vadd c (vmul d (pw std (fq (1 # 3))))) in
  let nu := vadd e (vmul f mean) in
  let tau := ex (if vltb (fz 10) g then fz 10 else g) in
  let bound := tc tau (vdiv (fz 1) (vmul sigma (vabs nu))) in
  let qz := if vleb nu (fz 0) then vmul quantile bound else vsub (fz 1) (vmul (vsub (fz 1) quantile) bound) in
  let z := tq tau qz in
  let value := if negb (veqb nu (fz 0)) then vmul mu (pw (vadd (fz 1) (vmul (vmul sigma nu) z)) (vdiv (fz 1) nu)) else vmul mu (ex (vmul sigma z)) in
  Ok (if cvalid value then value else CMV).
(** Bct.cpp:41-56 and 58-75: sums that become missing with the first missing member *)
Definition sticky (add : val -> val) (st : val * Z) (value : val) : val * Z := let '(sum, counter) := st in if cvalid value && cvalid sum then (vadd sum (add value), counter + 1) else (CMV, counter).
Definition bct_stats (E : ext) (values : vec) : val * val * Z :=
  let '(sum, counter) := fold_left (sticky (fun v => v)) values (fz 0, 0) in
  let mean := if cvalid sum then vdiv sum (fz counter) else sum in
  let std := if cvalid mean then
      let '(dev, count) := fold_left (sticky (fun v => vmul (vsub v mean) (vsub v mean))) values (fz 0, 0) in
      if cvalid dev then vsqrt E (vdiv dev (fz count)) else CMV
    else CMV in
  (mean, std, counter).
(** CalibratorBct::calibrateCore for a point, Bct.cpp:40-118; mMaxEnsMean is always 100 *)
Definition bct_point (sort_pairs : list (val * Z) -> list (val * Z)) (E : ext) (ex : val -> val) (pw : val -> val -> val) (tc tq : val -> val -> val) (d : dims) (par : vec) (f : field) (i j : Z) : res field :=
  values <- mapM (fun e => f_get f i j e) (zrange 0 (d_e d)) ;;
  let '(ensMean, ensStd, counter) := bct_stats E values in
  if cvalid ensMean && cvalid ensStd && (0 <? counter) then
    replace_members sort_pairs d (bct_inv ex pw tc tq (if vltb (fz 100) ensMean then fz 100 else ensMean) ensStd par) f i j
  else keep_members d f i j.
Definition bct_calibrator (sort_pairs : list (val * Z) -> list (val * Z)) (E : ext) (ex : val -> val) (pw : val -> val -> val) (tc tq : val -> val -> val) (pars : Z -> Z -> Z -> vec) (d : dims)
    (fields : list field) : res (list field) :=
  each_time d (fun t => f <- znth fields t ;; foldM (fun f c => let '(i, j) := c in bct_point sort_pairs E ex pw tc tq d (pars t i j) f i j) f (points d)).

(** Util::invLogit, Util.cpp:266-270 *)
Definition inv_logit (ex : val -> val) (x : val) : val := if cvalid x then vdiv (ex x) (vadd (ex x) (fz 1)) else CMV.
(** CalibratorZaga::getP0, Zaga.cpp:382-397 *)
Definition zaga_p0 (ex : val -> val) (pw : val -> val -> val) (mean frac : val) (par : vec) : res val :=
  if negb (cvalid mean) || negb (cvalid frac) || vltb mean (fz 0) || vltb frac (fz 0) || vltb (fz 1) frac then Ok CMV else
  if negb (par_valid par) then Ok CMV else
  a <- par_get par 4 ;; b <- par_get par 5 ;; c <- par_get par 6 ;; d <- par_get par 7 ;;
  Ok (inv_logit ex (vadd (vadd (vadd a (vmul b mean)) (vmul c frac)) (vmul d (pw mean (fq (1 # 3)))))).
(** Zaga.cpp:265-286, 321-340: the parameters of the gamma distribution; None: invalid *)
Definition zaga_gamma (ex : val -> val) (pw : val -> val -> val) (mean : val) (par : vec) : res (option (val * val)) :=
  mua <- par_get par 0 ;; mub <- par_get par 1 ;; sa <- par_get par 2 ;; sb <- par_get par 3 ;;
  let mu := ex (vadd mua (vmul mub (pw mean (fq (1 # 3))))) in
  let sigma := ex (vadd sa (vmul sb mean)) in
  if vleb mu (fz 0) || vleb sigma (fz 0) then Ok None else
  if negb (cvalid mu) || negb (cvalid sigma) then Ok None else
  let shape := vdiv (fz 1) (vmul sigma sigma) in let scale := vmul (vmul sigma sigma) mu in
  Ok (if negb (cvalid scale) || negb (cvalid shape) then None else Some (shape, scale)).
(** CalibratorZaga::getInvCdf, Zaga.cpp:236-294; [gq shape scale p]: the quantile of the gamma distribution *)
Definition zaga_inv (ex : val -> val) (pw : val -> val -> val) (gq : val -> val -> val -> val) (mean frac : val) (par : vec) (quantile : val) : res val :=
  if vltb quantile (fz 0) || vleb (fz 1) quantile then Ok CMV else
  if negb (cvalid mean) || negb (cvalid frac) then Ok CMV else
  if vltb mean (fz 0) || vltb frac (fz 0) || vltb (fz 1) frac then Ok CMV else
  if negb (par_valid par) then Ok CMV else
  if veqb quantile (fz 0) then Ok (fz 0) else
  p0 <- zaga_p0 ex pw mean frac par ;;
  if negb (cvalid p0) then Ok CMV else
  if vltb quantile p0 then Ok (fz 0) else
  let quantileCont := vdiv (vsub quantile p0) (vsub (fz 1) p0) in
  g <- zaga_gamma ex pw mean par ;;
  match g with
  | None => Ok CMV
  | Some (shape, scale) => let value := gq shape scale quantileCont in Ok (if cvalid value then value else CMV)
  end.
(** CalibratorZaga::getCdf, Zaga.cpp:295-352; [gc shape scale x]: the cumulative distribution function *)
Definition zaga_cdf (ex : val -> val) (pw : val -> val -> val) (gc : val -> val -> val -> val) (mean frac : val) (par : vec) (threshold : val) : res val :=
  if negb (cvalid threshold) || negb (cvalid mean) || negb (cvalid frac) then Ok CMV else
  if vltb mean (fz 0) || vltb frac (fz 0) || vltb (fz 1) frac then Ok CMV else
  if vltb threshold (fz 0) then Ok (fz 0) else
  if negb (par_valid par) then Ok CMV else
  p0 <- zaga_p0 ex pw mean frac par ;;
  if negb (cvalid p0) then Ok CMV else
  if veqb threshold (fz 0) then Ok p0 else
  g <- zaga_gamma ex pw mean par ;;
  match g with
  | None => Ok CMV
  | Some (shape, scale) =>
      let cdf := vadd p0 (vmul (vsub (fz 1) p0) (gc shape scale threshold)) in
      if negb (cvalid cdf) then Ok CMV else
      _ <- assert_ (vleb cdf (fz 1)) ;; _ <- assert_ (vleb (fz 0) cdf) ;; Ok cdf
  end.
(** Zaga.cpp:119-131: the sum over the time window; times before the first are read too *)
Definition window_total (precips : list field) (w t i j e : Z) : res val :=
  foldM (fun total tt => value <- get4 precips tt i j e ;; Ok (if cvalid total && cvalid value then vadd total value else CMV)) (fz 0) (zrange (t - w + 1) (t + 1)).
(** Zaga.cpp:108-142 *)
Definition zaga_sums (fracThreshold : val) (d : dims) (size w : Z) (precips : list field) (t i j : Z) : res (val * val * Z) :=
  foldM (fun st c => let '(ensMean, ensFrac, counter) := st in let '(ii, jj, e) := c in
    total <- window_total precips w t ii jj e ;;
    Ok (if cvalid total && cvalid ensMean then (vadd ensMean total, vadd ensFrac (fz (if vleb total fracThreshold then 1 else 0)), counter + 1) else (CMV, CMV, counter)))
    (fz 0, fz 0, 0) (around d size i j).
(** the options, Zaga.cpp:9-46, without the names of variables *)
Record zopts := { z_frac : val; z_size : Z; z_max : val; z_6h : bool; z_threshold : val }.
Definition z_window (o : zopts) : Z := if z_6h o then 6 else 1.
Definition z_start (o : zopts) : Z := if z_6h o then 5 else 0.
(** Zaga.cpp:149-161 *)
Definition zaga_predictors (o : zopts) (d : dims) (precips : list field) (t i j : Z) : res (option (val * val)) :=
  '(ensMean, ensFrac, counter) <- zaga_sums (z_frac o) d (z_size o) (z_window o) precips t i j ;;
  Ok (if cvalid ensMean && (0 <? counter) then
        let mean := vdiv ensMean (fz counter) in
        Some (if cvalid (z_max o) && vltb (z_max o) mean then z_max o else mean, vdiv ensFrac (fz counter))
      else None).
(** Zaga.cpp:37-44: the checks of the constructor *)
Definition zaga_checks (o : zopts) : res unit := if negb (cvalid (z_max o)) || vleb (z_max o) (fz 0) then Abort else if z_size o <? 0 then Abort else Ok tt.
(** CalibratorZaga::calibrateCore without popVariable, Zaga.cpp:48-234: the fields of the calibrated variable, which are read and written *)
Definition zaga_calibrator (sort_pairs : list (val * Z) -> list (val * Z)) (ex : val -> val) (pw : val -> val -> val) (gq : val -> val -> val -> val) (o : zopts) (pars : Z -> Z -> Z -> vec) (d : dims)
    (fields : list field) : res (list field) :=
  _ <- zaga_checks o ;;
  foldM (fun precips t => foldM (fun precips c => let '(i, j) := c in
    p <- zaga_predictors o d precips t i j ;;
    f <- znth precips t ;;
    f <- match p with
         | Some (ensMean, ensFrac) => replace_members sort_pairs d (zaga_inv ex pw gq ensMean ensFrac (pars t i j)) f i j
         | None => keep_members d f i j
         end ;;
    zset precips t f) precips (points d)) fields (zrange 0 (d_t d)).
(** CalibratorZaga::calibrateCore with popVariable, Zaga.cpp:48-234: the fields of the probability of precipitation.  The precipitation is not changed: the members are
    written back where an ensemble is not complete, which is left out.  Simplification: no fields of quantiles of precipitation (lowVariable, ...), see [zaga_level] *)
Definition zaga_pop (ex : val -> val) (pw : val -> val -> val) (gc : val -> val -> val -> val) (o : zopts) (pars : Z -> Z -> Z -> vec) (d : dims) (precips pops : list field) : res (list field) :=
  _ <- zaga_checks o ;;
  each_time d (fun t =>
    pop <- znth pops t ;;
    foldM (fun pop c => let '(i, j) := c in
      if t <? z_start o then foldM (fun pop e => f_set pop i j e CMV) pop (zrange 0 (d_e d))
      else
        p <- zaga_predictors o d precips t i j ;;
        match p with
        | Some (ensMean, ensFrac) =>
            foldM (fun pop e => cdf <- zaga_cdf ex pw gc ensMean ensFrac (pars t i j) (z_threshold o) ;; f_set pop i j e (if cvalid cdf then vsub (fz 1) cdf else CMV)) pop (zrange 0 (d_e d))
        | None => Ok pop
        end) pop (points d)).
(** Zaga.cpp:173-187: a field with a quantile of precipitation (low, middle or high), which is filled only with popVariable *)
Definition zaga_level (ex : val -> val) (pw : val -> val -> val) (gq : val -> val -> val -> val) (o : zopts) (quantile : val) (pars : Z -> Z -> Z -> vec) (d : dims) (precips out : list field) : res (list field) :=
  _ <- zaga_checks o ;;
  each_time d (fun t =>
    f <- znth out t ;;
    foldM (fun f c => let '(i, j) := c in
      if t <? z_start o then Ok f
      else
        p <- zaga_predictors o d precips t i j ;;
        match p with
        | Some (ensMean, ensFrac) => foldM (fun f e => v <- zaga_inv ex pw gq ensMean ensFrac (pars t i j) quantile ;; f_set f i j e v) f (zrange 0 (d_e d))
        | None => Ok f
        end) f (points d)).
(** CalibratorZaga::train, Zaga.cpp:399-428: the predictors of an ensemble; the fraction is a quotient of int *)
Definition zaga_train_predictors (E : ext) (fracThreshold : val) (ens : vec) : res (val * val) :=
  mean <- calculate_stat E ens CMean (fz 0) ;;
  let total := zlen (filter (fun v => cvalid v && vleb v fracThreshold) ens) in
  let valid := zlen (filter cvalid ens) in
  if 0 <? valid then Ok (mean, fz (Z.quot total valid)) else Abort.
