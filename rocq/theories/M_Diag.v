(** Model of src/api/wind.cpp, pressure.cpp, qnh.cpp and humidity.cpp. Arithmetic is exact; decimal literals stand for
    themselves (not for the nearest binary32 number) except gridpp::pi, whose deviation from the true value is visible in
    wind directions. float and double are not distinguished. *)
From Coq Require Import Reals.
From Verif Require Import RBase RPow.
Local Open Scope Z_scope.

Notation rvec := (list rv).
(** a decimal literal *)
Definition dec (n : Z) (d : positive) : rv := RF (IZR n / IZR (Zpos d))%R.

(** ** wind.cpp *)
(** gridpp::pi, include/gridpp.h:53: the binary32 number nearest to 3.14159265 *)
Definition gpi : R := (13176795 / 4194304)%R.
(** wind_speed, wind.cpp:6-8 *)
Definition wind_speed (xwind ywind : rv) : rv := rsqrt (radd (rmul xwind xwind) (rmul ywind ywind)).
(** wind_direction, wind.cpp:20-26; [nx], [ny] tell whether -xwind, -ywind is a negative zero *)
Definition wind_direction (nx ny : bool) (xwind ywind : rv) : rv :=
  let dir := rdiv (rmul (ratan2 nx ny (rneg xwind) (rneg ywind)) (rz 180)) (RF gpi) in
  if rltb dir (rz 0) then radd dir (rz 360) else dir.
(** wind_speed(vec), wind.cpp:9-19 *)
Definition wind_speed_vec (xwind ywind : rvec) : res rvec :=
  if negb (zlen xwind =? zlen ywind) then Throw InvalidArgument else
  let N := zlen xwind in
  omp (for1 N (init1 N RMV) (fun n => x <- znth xwind n ;; y <- znth ywind n ;; Ok (wind_speed x y))).
(** wind_direction(vec), wind.cpp:27-37 *)
Definition wind_direction_vec (sx sy : Z -> bool) (xwind ywind : rvec) : res rvec :=
  if negb (zlen xwind =? zlen ywind) then Throw InvalidArgument else
  let N := zlen xwind in
  omp (for1 N (init1 N RMV) (fun n => x <- znth xwind n ;; y <- znth ywind n ;; Ok (wind_direction (sx n) (sy n) x y))).

(** ** pressure.cpp *)
(** pressure, pressure.cpp:5-13 *)
Definition pressure (ielev oelev ipressure itemperature : rv) : rv :=
  let g0 := dec 980665 100000 in let M := dec 289644 10000000 in let R := dec 83144598 10000000 in
  if r_valid ielev && r_valid oelev && r_valid ipressure && r_valid itemperature
  then rmul ipressure (rexp (rdiv (rmul (rmul (rneg g0) M) (rsub oelev ielev)) (rmul R itemperature)))
  else RMV.
(** pressure(vec), pressure.cpp:15-26 *)
Definition pressure_vec (ielev oelev ipressure itemperature : rvec) : res rvec :=
  let N := zlen ielev in
  if negb (zlen oelev =? N) || negb (zlen ipressure =? N) || negb (zlen itemperature =? N) then Throw InvalidArgument else
  omp (for1 N (init1 N (rz 0)) (fun i => a <- znth ielev i ;; b <- znth oelev i ;; c <- znth ipressure i ;; d <- znth itemperature i ;;
    Ok (pressure a b c d))).
(** 6.11 * pow(10., (7.5 * t) / (b + t)), pressure.cpp:53, 62 and 72 *)
Definition tens (b t : rv) : rv := rmul (dec 611 100) (rpow (rz 10) (rdiv (rmul (dec 75 10) t) (radd b t))).
(** sea_level_pressure, pressure.cpp:28-80 *)
Definition sea_level_pressure (ps altitude temperature rh dewpoint : rv) : res rv :=
  if negb (r_valid altitude) then Throw RuntimeError
  else if negb (r_valid temperature) then Throw RuntimeError
  else if rltb ps (rz 0) || rltb temperature (rz 0) || rltb rh (rz 0) || rltb (rz 1) rh || rltb dewpoint (rz 0) then Throw RuntimeError
  else
    let T := rsub temperature (dec 27315 100) in
    let Ts := radd (dec 27315 100) T in
    let g := dec 980665 100000 in let R := dec 28705 100 in let a := dec 65 10000 in let Ch := dec 12 100 in
    let ps := rmul ps (dec 1 100) in
    let '(e, dewpoint) :=
      if r_valid rh then
        let es := tens (dec 2373 10) T in
        let e := rmul rh es in
        let A := dec 17625 1000 in let B := dec 24304 100 in let C := dec 61094 10000 in
        (e, rdiv (rmul B (rlog (rdiv e C))) (rsub A (rlog (rdiv e C))))
      else if r_valid dewpoint then
        let dewpoint := rsub dewpoint (dec 27315 100) in
        (tens (dec 2373 10) dewpoint, dewpoint)
      else (rz 0, rsub T (rz 3)) in
    let slp :=
      if rleb (rz 50) altitude then
        rmul ps (rexp (rdiv (rdiv (rmul g altitude) R)
                            (radd (radd Ts (rmul (rmul (dec 5 10) a) altitude)) (rmul e Ch))))
      else
        let Tv := rdiv (radd (dec 27315 100) T)
                       (rsub (rz 1) (rmul (dec 379 1000) (rdiv (tens (dec 2377 10) dewpoint) ps))) in
        let Ck := rdiv (rmul ps altitude) (rmul (dec 2927 100) Tv) in
        radd ps Ck in
    Ok (rmul slp (rz 100)).
(** sea_level_pressure(vec), pressure.cpp:82-93 *)
Definition sea_level_pressure_vec (ps altitude temperature rh dewpoint : rvec) : res rvec :=
  let N := zlen ps in
  if negb (zlen altitude =? N) || negb (zlen temperature =? N) || negb (zlen rh =? N) || negb (zlen dewpoint =? N) then Throw InvalidArgument else
  omp (for1 N (init1 N (rz 0)) (fun i => a <- znth ps i ;; b <- znth altitude i ;; c <- znth temperature i ;; d <- znth rh i ;; e <- znth dewpoint i ;;
    sea_level_pressure a b c d e)).

(** ** qnh.cpp *)
(** qnh, qnh.cpp:6-30 *)
Definition qnh (pressure altitude : rv) : rv :=
  if reqb pressure (rz 0) then rz 0
  else if r_valid altitude && r_valid pressure then
    let g := dec 980665 100000 in let T0 := dec 28815 100 in let L := dec 65 10000 in
    let CRGas := dec 287053 1000 in let p0 := rz 101325 in
    rmul p0 (rpow (radd (rpow (rdiv pressure p0) (rdiv (rmul CRGas L) g)) (rdiv (rmul altitude L) T0))
                  (rdiv g (rmul CRGas L)))
  else RMV.
(** qnh(vec), qnh.cpp:31-41 *)
Definition qnh_vec (pressure altitude : rvec) : res rvec :=
  if negb (zlen pressure =? zlen altitude) then Throw InvalidArgument else
  let N := zlen pressure in
  omp (for1 N (init1 N (rz 0)) (fun y => a <- znth pressure y ;; b <- znth altitude y ;; Ok (qnh a b))).

(** ** humidity.cpp *)
(** vapour pressure e and its dewpoint in degrees Celsius, humidity.cpp:8-10 and 96-97 *)
Definition vapour (relative_humidity tempC : rv) : rv :=
  rmul (rmul relative_humidity (dec 611 1000)) (rexp (rdiv (rmul (dec 1763 100) tempC) (radd tempC (dec 24304 100)))).
Definition dew_of (e : rv) : rv :=
  rdiv (radd (dec 1169 10) (rmul (dec 24304 100) (rlog e))) (rsub (dec 1678 100) (rlog e)).
(** dewpoint, humidity.cpp:5-21 *)
Definition dewpoint (temperature relative_humidity : rv) : rv :=
  if r_valid temperature && r_valid relative_humidity then
    let tempC := rsub temperature (dec 27315 100) in
    let e := vapour relative_humidity tempC in
    let td := radd (dew_of e) (dec 27315 100) in
    if rleb td temperature then td else temperature
  else RMV.
(** dewpoint(vec), humidity.cpp:22-32 *)
Definition dewpoint_vec (temperature relative_humidity : rvec) : res rvec :=
  if negb (zlen temperature =? zlen relative_humidity) then Throw InvalidArgument else
  let N := zlen temperature in
  omp (for1 N (init1 N (rz 0)) (fun y => a <- znth temperature y ;; b <- znth relative_humidity y ;; Ok (dewpoint a b))).
(** wetbulb, humidity.cpp:91-109 *)
Definition wetbulb (temperature pressure relative_humidity : rv) : rv :=
  let tempC := rsub temperature (dec 27315 100) in
  if rleb tempC (dec (-24304) 100) || rleb relative_humidity (rz 0) then RMV
  else if r_valid tempC && r_valid pressure && r_valid relative_humidity then
    let e := vapour relative_humidity tempC in
    let Td := dew_of e in
    let gamma := rdiv (rmul (dec 66 100000) pressure) (rz 1000) in
    let delta := rdiv (rmul (rz 4098) e) (rpow (radd Td (dec 24304 100)) (rz 2)) in
    if reqb (radd gamma delta) (rz 0) then RMV
    else radd (rdiv (radd (rmul gamma tempC) (rmul delta Td)) (radd gamma delta)) (dec 27315 100)
  else RMV.
(** wetbulb(vec), humidity.cpp:110-122 *)
Definition wetbulb_vec (temperature pressure relative_humidity : rvec) : res rvec :=
  if negb (zlen temperature =? zlen pressure) then Throw InvalidArgument
  else if negb (zlen temperature =? zlen relative_humidity) then Throw InvalidArgument else
  let N := zlen temperature in
  omp (for1 N (init1 N (rz 0)) (fun y => a <- znth temperature y ;; b <- znth pressure y ;; c <- znth relative_humidity y ;; Ok (wetbulb a b c))).
