(** Model of the client's diagnostics: src/client/Calibrator/{DiagnoseWind,DiagnoseHumidity,Qnh,Altitude}.cpp.  The functions of values are in exact real arithmetic, as in
    M_Diag (decimal literals stand for themselves, except Util::pi, which is the float 3.14159265; float and double are not distinguished); computeRh is rational.  The
    calibrators have them as arguments. *)
From Coq Require Import Reals String Ascii.
From Verif Require Import RBase RPow M_Stat M_COpt M_CUtil M_CCal M_CTree M_CPar M_Diag M_RelHum.
Local Open Scope Z_scope.

(** Util::isValid on real numbers, Util.cpp; Util::MV *)
Definition RCMV : rv := rz (-999).
Definition r_cvalid (v : rv) : bool := match v with RF x => negb (Reqb x (-999)) | _ => false end.
Definition rsin (a : rv) : rv := match a with RF x => RF (sin x) | _ => RNaN end.
Definition rcos (a : rv) : rv := match a with RF x => RF (cos x) | _ => RNaN end.

(** DiagnoseWind.cpp:45 and 64 *)
Definition client_x (speed direction : rv) : rv := rmul (rneg speed) (rsin (rmul (rdiv direction (rz 180)) (RF gpi))).
Definition client_y (speed direction : rv) : rv := rmul (rneg speed) (rcos (rmul (rdiv direction (rz 180)) (RF gpi))).
(** DiagnoseWind.cpp:83 *)
Definition client_speed (x y : rv) : rv := rsqrt (radd (rmul x x) (rmul y y)).
(** DiagnoseWind.cpp:102-106; [nx], [ny] tell whether -x, -y is a negative zero *)
Definition client_direction (nx ny : bool) (x y : rv) : rv :=
  let dir := rdiv (rmul (ratan2 nx ny (rneg x) (rneg y)) (rz 180)) (RF gpi) in
  if rltb dir (rz 0) then radd dir (rz 360) else dir.

(** CalibratorDiagnoseHumidity::computeDewpoint, DiagnoseHumidity.cpp:107-123 *)
Definition compute_dewpoint (temperature rh : rv) : rv :=
  if r_cvalid temperature && r_cvalid rh then
    let tempC := rsub temperature (dec 27315 100) in
    let e := rmul (rmul rh (dec 611 1000)) (rexp (rdiv (rmul (dec 1763 100) tempC) (radd tempC (dec 24304 100)))) in
    let tdC := rdiv (radd (dec 1169 10) (rmul (dec 24304 100) (rlog e))) (rsub (dec 1678 100) (rlog e)) in
    let td := radd tdC (dec 27315 100) in
    if rleb td temperature then td else temperature
  else RCMV.
(** CalibratorDiagnoseHumidity::computeWetbulb, DiagnoseHumidity.cpp:174-193 *)
Definition compute_wetbulb (temperature pressure rh : rv) : rv :=
  let tempC := rsub temperature (dec 27315 100) in
  if rleb tempC (dec (-24304) 100) || rleb rh (rz 0) then RCMV
  else if r_cvalid tempC && r_cvalid pressure && r_cvalid rh then
    let e := rmul (rmul rh (dec 611 1000)) (rexp (rdiv (rmul (dec 1763 100) tempC) (radd tempC (dec 24304 100)))) in
    let Td := rdiv (radd (dec 1169 10) (rmul (dec 24304 100) (rlog e))) (rsub (dec 1678 100) (rlog e)) in
    let gamma := rdiv (rmul (dec 66 100000) pressure) (rz 1000) in
    let delta := rdiv (rmul (rz 4098) e) (rpow (radd Td (dec 24304 100)) (rz 2)) in
    if reqb (radd gamma delta) (rz 0) then RCMV
    else radd (rdiv (radd (rmul gamma tempC) (rmul delta Td)) (radd gamma delta)) (dec 27315 100)
  else RCMV.
(** CalibratorDiagnoseHumidity::mEwt and computeRh, DiagnoseHumidity.cpp:125-172, in units of 1e-6 *)
Definition client_ewt : vec := map (fun n => fq (n # 1000000))
  [34; 89; 220; 517; 1155; 2472;
   5080; 10050; 19210; 35530; 63560; 111100;
   189100; 313900; 508800; 807000; 1254000; 1911800;
   2862700; 4214800; 6107800; 8719200; 12272000; 17044000;
   23373000; 31671000; 42430000; 56236000; 73777000; 95855000;
   123400000; 157460000; 199260000; 250160000; 311690000; 385560000;
   473670000; 578090000; 701130000; 845280000; 1013250000].
Definition client_ewt_at (t : val) : res val :=
  let x := vmul (vsub t (fq (17316 # 100))) (fq (2 # 10)) in
  let x := if vltb x (fz 0) then fz 0 else if vltb (fz 39) x then fz 39 else x in
  l <- to_int x ;;
  _ <- assert_ (0 <=? l) ;; _ <- assert_ (l + 1 <? 41) ;;
  a <- znth client_ewt l ;; b <- znth client_ewt (l + 1) ;;
  Ok (vadd a (vmul (vsub b a) (vsub x (fz l)))).
Definition compute_rh (temperature dewpoint : val) : res val :=
  if cvalid temperature && cvalid dewpoint then
    if vleb temperature dewpoint then Ok (fz 1) else
    et <- client_ewt_at temperature ;;
    etd <- client_ewt_at dewpoint ;;
    let rh := vdiv etd et in
    let rh := if vltb rh (fz 0) then fz 0 else rh in
    Ok (if vltb (fz 1) rh then fz 1 else rh)
  else Ok CMV.
(** CalibratorQnh::calcQnh, Qnh.cpp:47-72 *)
Definition calc_qnh (elev pressure : rv) : rv :=
  if reqb pressure (rz 0) then rz 0
  else if r_cvalid elev && r_cvalid pressure then
    let g := dec 980665 100000 in let T0 := dec 28815 100 in let L := dec 65 10000 in
    let CRGas := dec 287053 1000 in let p0 := rz 101325 in
    rmul p0 (rpow (radd (rpow (rdiv pressure p0) (rdiv (rmul CRGas L) g)) (rdiv (rmul elev L) T0)) (rdiv g (rmul CRGas L)))
  else RCMV.

(** the loops over a field of two inputs, DiagnoseWind.cpp:41-50, 60-69, 79-88, 98-113, DiagnoseHumidity.cpp:39-46, 60-67.  An input that is missing in the file is None.
    The output may be one of the inputs: an element is read before it is written, and not after *)
Definition input (v : option (list field)) (t : Z) : res field := match v with None => Abort | Some fs => znth fs t end.
Definition diagnose2 (f2 : val -> val -> res val) (a b : option (list field)) (d : dims) (outs : list field) : res (list field) :=
  each_time d (fun t => o <- znth outs t ;; fa <- input a t ;; fb <- input b t ;;
    for3 d o (fun o y x e => u <- f_get fa y x e ;; v <- f_get fb y x e ;;
      if cvalid u && cvalid v then w <- f2 u v ;; f_set o y x e w else Ok o)).
(** the checks of the constructor, DiagnoseWind.cpp:6-24: the names that are given; "" is none *)
Definition named (s : str) : bool := negb (str_eqb s []).
Definition wind_checks (x y speed direction compute : str) : res unit :=
  if (str_eqb compute (txt "x") || str_eqb compute (txt "y")) && (negb (named speed) || negb (named direction)) then Abort else
  if (str_eqb compute (txt "speed") || str_eqb compute (txt "direction")) && (negb (named x) || negb (named y)) then Abort else Ok tt.
(** CalibratorDiagnoseWind, DiagnoseWind.cpp:6-116; the variables of the file by name *)
Definition diagnose_wind (fx fy fs fd : val -> val -> val) (file : str -> option (list field)) (x y speed direction compute : str) (d : dims) (outs : list field) : res (list field) :=
  _ <- wind_checks x y speed direction compute ;;
  let two f a b := diagnose2 (fun u v => Ok (f u v)) (file a) (file b) d outs in
  if str_eqb compute (txt "x") then two fx speed direction
  else if str_eqb compute (txt "y") then two fy speed direction
  else if str_eqb compute (txt "speed") then two fs x y
  else if str_eqb compute (txt "direction") then two fd x y
  else Ok outs.
(** DiagnoseHumidity.cpp:6-26; the temperature is required *)
Definition humidity_checks (rh dewpoint compute : str) : res unit :=
  if str_eqb compute (txt "dewpoint") && negb (named rh) then Abort else
  if str_eqb compute (txt "rh") && negb (named dewpoint) then Abort else
  if str_eqb compute (txt "wetbulb") && negb (named rh) then Abort else Ok tt.
(** DiagnoseHumidity.cpp:70-104: pressure from a variable, or from the elevation, which must be there ([hasElevs]); [pr elev] is DownscalerPressure::calcPressure(0, 101325, elev) *)
Definition diagnose_wetbulb (fw : val -> val -> val -> val) (pr : val -> val) (temps rhs : option (list field)) (pressures : option (option (list field))) (hasElevs : bool) (elevs : list vec) (d : dims)
    (outs : list field) : res (list field) :=
  each_time d (fun t => o <- znth outs t ;; fa <- input temps t ;; fb <- input rhs t ;;
    fp <- match pressures with Some p => f <- input p t ;; Ok (Some f) | None => if hasElevs then Ok None else Abort end ;;
    for3 d o (fun o y x e => elev <- get2 elevs y x ;; u <- f_get fa y x e ;; v <- f_get fb y x e ;;
      if cvalid u && cvalid v then
        p <- match fp with Some f => f_get f y x e | None => Ok (pr elev) end ;;
        f_set o y x e (fw u p v)
      else Ok o)).
(** CalibratorDiagnoseHumidity, DiagnoseHumidity.cpp:6-105 *)
Definition diagnose_humidity (fdew : val -> val -> val) (frh : val -> val -> res val) (fw : val -> val -> val -> val) (pr : val -> val) (file : str -> option (list field)) (hasElevs : bool) (elevs : list vec)
    (temperature rh dewpoint pressure compute : str) (d : dims) (outs : list field) : res (list field) :=
  _ <- humidity_checks rh dewpoint compute ;;
  if str_eqb compute (txt "dewpoint") then diagnose2 (fun u v => Ok (fdew u v)) (file temperature) (file rh) d outs
  else if str_eqb compute (txt "rh") then diagnose2 frh (file temperature) (file dewpoint) d outs
  else if str_eqb compute (txt "wetbulb") then diagnose_wetbulb fw pr (file temperature) (file rh) (if named pressure then Some (file pressure) else None) hasElevs elevs d outs
  else Ok outs.
(** CalibratorQnh::calibrateCore, Qnh.cpp:10-38 *)
Definition qnh_calibrator (fq : val -> val -> val) (elevs : list vec) (d : dims) (pressures outs : list field) : res (list field) :=
  each_time d (fun t => fp <- znth pressures t ;; o <- znth outs t ;;
    for3 d o (fun o i j e => elev <- get2 elevs i j ;; p <- f_get fp i j e ;; if cvalid p && cvalid elev then f_set o i j e (fq elev p) else Ok o)).
(** CalibratorAltitude::calibrateCore, Altitude.cpp:10-30 *)
Definition altitude_calibrator (gc : val -> val -> val -> val -> val) (f : pfile) (lats lons elevs : list vec) (nY nX : Z) : res (list vec) :=
  dep <- location_dependent f ;;
  if negb dep then Abort else
  foldM (fun elevs c => let '(i, j) := c in
    lat <- get2 lats i j ;; lon <- get2 lons i j ;; elev <- get2 elevs i j ;;
    loc <- nearest_location gc f 0 {| l_lat := lat; l_lon := lon; l_elev := elev |} ;;
    set2 elevs i j (match loc with Some l => l_elev l | None => CMV end))
    elevs (flat_map (fun i => map (fun j => (i, j)) (zrange 0 nX)) (zrange 0 nY)).
