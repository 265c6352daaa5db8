(** The client's diagnostics, its coastal and its altitude calibrator: C203-C209. *)
From Coq Require Import Reals String Ascii Lra Lia.
From Verif Require Import RBase RPow M_Diag Base ListLib QcTac M_Stat M_COpt M_CUtil S_CUtil M_CCal S_CCal M_CTree S_CTree P_CTree M_CPar S_CPar P_CPar P_CParTxt M_RelHum S_RelHum M_CDiag S_CDiag P_CDiag M_CCoast S_CCoast P_CCoast P_CAlt P_CDistEx P_CDiagEx.
Local Open Scope Z_scope.

(** C203: the result has the function of the inputs at the same place where they are present, and is unchanged elsewhere *)
Theorem C203_wind : forall k fx fy fs fd file x y speed direction d outs A B, let '(a, b) := wind_inputs k x y speed direction in a <> [] -> b <> [] -> file a = Some A -> file b = Some B -> shaped d A -> shaped d B -> shaped d outs ->
  exists outs', diagnose_wind fx fy fs fd file x y speed direction (wind_name k) d outs = Ok outs' /\ computed2 d (fun u v w => w = wind_function k fx fy fs fd u v) A B outs outs'.
Proof. exact c203_wind. Qed.
Print Assumptions C203_wind.
Theorem C203_humidity : forall fdew frh fw pr file hasElevs elevs temperature rh dewpoint pressure d outs T X, file temperature = Some T -> shaped d T -> shaped d X -> shaped d outs ->
  (rh <> [] -> file rh = Some X -> exists outs', diagnose_humidity fdew frh fw pr file hasElevs elevs temperature rh dewpoint pressure (txt "dewpoint") d outs = Ok outs' /\ computed2 d (fun u v w => w = fdew u v) T X outs outs') /\
  (dewpoint <> [] -> file dewpoint = Some X -> (forall u v, ~ missing u -> ~ missing v -> exists w, frh u v = Ok w) ->
    exists outs', diagnose_humidity fdew frh fw pr file hasElevs elevs temperature rh dewpoint pressure (txt "rh") d outs = Ok outs' /\ computed2 d (fun u v w => frh u v = Ok w) T X outs outs').
Proof. exact c203_humidity. Qed.
Print Assumptions C203_humidity.
Theorem C203_wetbulb : forall fdew frh fw pr file hasElevs elevs temperature rh dewpoint pressure d outs T X P, file temperature = Some T -> rh <> [] -> file rh = Some X -> shaped d T -> shaped d X -> shaped d outs -> rect (d_y d) (d_x d) elevs ->
  match P with Some P => pressure <> [] /\ file pressure = Some P /\ shaped d P | None => pressure = [] /\ hasElevs = true end ->
  exists outs', diagnose_humidity fdew frh fw pr file hasElevs elevs temperature rh dewpoint pressure (txt "wetbulb") d outs = Ok outs' /\ computed_wetbulb d elevs fw pr T X P outs outs'.
Proof. exact c203_wetbulb. Qed.
Print Assumptions C203_wetbulb.
Theorem C203_qnh : forall fq elevs d P outs, rect (d_y d) (d_x d) elevs -> shaped d P -> shaped d outs -> exists outs', qnh_calibrator fq elevs d P outs = Ok outs' /\ computed_at d elevs fq P outs outs'.
Proof. exact c203_qnh. Qed.
Print Assumptions C203_qnh.
Example C203_example : let file := fun n => if str_eqb n (txt "u") then Some [row 2 1 [fz 3; fz 1]] else if str_eqb n (txt "v") then Some [row 2 1 [fz 4; CMV]] else None in
  shaped (dims2 2 1 1) [row 2 1 [fz 3; fz 1]] /\
  diagnose_wind vmul vdiv vadd vsub file (txt "u") (txt "v") [] [] (txt "speed") (dims2 2 1 1) [row 2 1 [NaN; fz 9]] = Ok [row 2 1 [fz 7; fz 9]] /\
  diagnose_wind vmul vdiv vadd vsub file (txt "u") (txt "v") [] [] (txt "direction") (dims2 2 1 1) [row 2 1 [NaN; fz 9]] = Ok [row 2 1 [fz (-1); fz 9]] /\
  qnh_calibrator vsub [[fz 5; NaN]] (dims2 2 1 1) [row 2 1 [fz 4; fz 4]] [row 2 1 [NaN; fz 9]] = Ok [row 2 1 [fz 1; fz 9]] /\
  diagnose_humidity vmul (fun a b => Ok (vsub a b)) (fun a p b => vadd a (vmul p b)) (fun z => vadd z z) file true [[fz 5; fz 6]] (txt "u") (txt "v") [] [] (txt "wetbulb") (dims2 2 1 1) [row 2 1 [NaN; fz 9]] = Ok [row 2 1 [fz 43; fz 9]].
Proof. cbv zeta. split; [apply row_shaped; reflexivity|]. split; [fcalc|]. split; [fcalc|]. split; fcalc. Qed.

(** C204: a diagnostic that is not known, or whose inputs are not there, is rejected.  False for the first: nothing is done *)
Theorem C204_wind_name_refuted : exists compute, ~ known_wind compute /\ forall fx fy fs fd file x y speed direction d outs, diagnose_wind fx fy fs fd file x y speed direction compute d outs = Ok outs.
Proof. exact c204_wind_refuted. Qed.
Print Assumptions C204_wind_name_refuted.
Theorem C204_humidity_name_refuted : exists compute, ~ known_humidity compute /\ forall fdew frh fw pr file hasElevs elevs temperature rh dewpoint pressure d outs, diagnose_humidity fdew frh fw pr file hasElevs elevs temperature rh dewpoint pressure compute d outs = Ok outs.
Proof. exact c204_humidity_refuted. Qed.
Print Assumptions C204_humidity_name_refuted.
Theorem C204_wind_partial : forall k fx fy fs fd file x y speed direction d outs, let '(a, b) := wind_inputs k x y speed direction in
  (a = [] \/ b = [] -> diagnose_wind fx fy fs fd file x y speed direction (wind_name k) d outs = Abort) /\
  (file a = None \/ file b = None -> (forall n fs, file n = Some fs -> shaped d fs) -> shaped d outs -> 0 < d_t d -> diagnose_wind fx fy fs fd file x y speed direction (wind_name k) d outs = Abort).
Proof. exact c204_wind_checks. Qed.
Print Assumptions C204_wind_partial.
Theorem C204_humidity_partial : forall fdew frh fw pr file hasElevs elevs temperature rh dewpoint pressure d outs, (rh = [] -> diagnose_humidity fdew frh fw pr file hasElevs elevs temperature rh dewpoint pressure (txt "dewpoint") d outs = Abort /\ diagnose_humidity fdew frh fw pr file hasElevs elevs temperature rh dewpoint pressure (txt "wetbulb") d outs = Abort) /\
  (dewpoint = [] -> diagnose_humidity fdew frh fw pr file hasElevs elevs temperature rh dewpoint pressure (txt "rh") d outs = Abort).
Proof. exact c204_humidity. Qed.
Print Assumptions C204_humidity_partial.
Theorem C204_wetbulb_partial : forall fdew frh fw pr file elevs temperature rh dewpoint d outs T X, file temperature = Some T -> file rh = Some X -> shaped d T -> shaped d X -> shaped d outs -> 0 < d_t d ->
  diagnose_humidity fdew frh fw pr file false elevs temperature rh dewpoint [] (txt "wetbulb") d outs = Abort.
Proof. exact c204_no_elevation. Qed.
Print Assumptions C204_wetbulb_partial.
Example C204_example : diagnose_wind vmul vdiv vadd vsub (fun _ => None) (txt "u") (txt "v") [] [] (txt "speed") (dims2 2 1 1) [row 2 1 [NaN; fz 9]] = Abort /\
  diagnose_wind vmul vdiv vadd vsub (fun _ => Some [row 2 1 [fz 3; fz 1]]) (txt "u") (txt "v") [] [] (txt "x") (dims2 2 1 1) [row 2 1 [NaN; fz 9]] = Abort.
Proof. split; reflexivity. Qed.

(** C205: from speed and direction to components and back *)
Local Open Scope R_scope.
Theorem C205_components_and_back : forall nx ny s d, 0 <= s -> 0 <= d < 360 ->
  exists x y, client_x (RF s) (RF d) = RF x /\ client_y (RF s) (RF d) = RF y /\ client_speed (RF x) (RF y) = RF s /\
    (0 < s -> exists d', client_direction nx ny (RF x) (RF y) = RF d' /\ close_angle (2 / 100000) d' d).
Proof. exact c205_back. Qed.
Print Assumptions C205_components_and_back.
Theorem C205_direction_and_back : forall nx ny x y, exists s d x' y', client_speed (RF x) (RF y) = RF s /\ client_direction nx ny (RF x) (RF y) = RF d /\ client_x (RF s) (RF d) = RF x' /\ client_y (RF s) (RF d) = RF y' /\
  Rabs (x' - x) <= s * (6 / 10000000) /\ Rabs (y' - y) <= s * (6 / 10000000).
Proof. exact c205_forth. Qed.
Print Assumptions C205_direction_and_back.
Local Close Scope R_scope.
Example C205_example : client_x (RF 10) (RF 0) = RF 0 /\ client_y (RF 10) (RF 0) = RF (-10) /\ (0 < 10)%R.
Proof. exact c205_ex. Qed.

(** C206: relative humidity *)
Theorem C206_relative_humidity : (forall t d, ~ missing (Fin t) -> ~ missing (Fin d) -> exists r, compute_rh (Fin t) (Fin d) = Ok (Fin r) /\ (0 <= r)%Qc /\ (r <= 1)%Qc /\ ((t <= d)%Qc -> r = 1%Qc) /\
     ((d < t)%Qc -> exists es e, saturation t es /\ saturation d e /\ (0 < es)%Qc /\ r = (e / es)%Qc)) /\
  (forall t d d' r r', ~ missing (Fin t) -> ~ missing (Fin d) -> ~ missing (Fin d') -> (d <= d')%Qc -> compute_rh (Fin t) (Fin d) = Ok (Fin r) -> compute_rh (Fin t) (Fin d') = Ok (Fin r') -> (r <= r')%Qc) /\
  (forall t t' d r r', ~ missing (Fin t) -> ~ missing (Fin t') -> ~ missing (Fin d) -> (t <= t')%Qc -> compute_rh (Fin t) (Fin d) = Ok (Fin r) -> compute_rh (Fin t') (Fin d) = Ok (Fin r') -> (r' <= r)%Qc).
Proof. exact c206_rh. Qed.
Print Assumptions C206_relative_humidity.
Theorem C206_as_library : (forall t d, ~ missing (Fin t) -> ~ missing (Fin d) -> compute_rh (Fin t) (Fin d) = relative_humidity (Fin t) (Fin d)) /\
  (forall t d, missing t \/ missing d -> compute_rh t d = Ok CMV).
Proof. exact c206_library. Qed.
Print Assumptions C206_as_library.
Example C206_example : compute_rh (fz 300) (fz 290) = relative_humidity (fz 300) (fz 290) /\ compute_rh (fz 280) (fz 290) = Ok (fz 1) /\ compute_rh CMV (fz 290) = Ok CMV /\ ~ missing (fz 300).
Proof. split; [vcalc|]. split; [vcalc|]. split; [vcalc|]. discriminate. Qed.

(** C207: dew point, wet bulb temperature and qnh are those of the library *)
Local Open Scope R_scope.
Theorem C207_dewpoint : (forall t h, present_real t -> present_real h -> compute_dewpoint (RF t) (RF h) = dewpoint (RF t) (RF h)) /\
  (forall t h, (forall x, t = RF x -> ~ present_real x) \/ (forall x, h = RF x -> ~ present_real x) -> compute_dewpoint t h = RF (-999)).
Proof. exact c207_dewpoint. Qed.
Print Assumptions C207_dewpoint.
Theorem C207_wetbulb : (forall t p h w, present_real t -> present_real p -> present_real h -> wetbulb (RF t) (RF p) (RF h) = RF w -> compute_wetbulb (RF t) (RF p) (RF h) = RF w) /\
  (forall t p h, h <= 0 \/ t <= 3011 / 100 -> compute_wetbulb (RF t) (RF p) (RF h) = RF (-999)) /\
  (forall t p h, (forall x, t = RF x -> ~ present_real x) \/ (forall x, p = RF x -> ~ present_real x) \/ (forall x, h = RF x -> ~ present_real x) -> compute_wetbulb t p h = RF (-999)).
Proof. exact c207_wetbulb. Qed.
Print Assumptions C207_wetbulb.
Theorem C207_qnh : (forall p z, present_real p -> present_real z -> calc_qnh (RF z) (RF p) = qnh (RF p) (RF z)) /\
  (forall p z, p <> RF 0 -> (forall x, p = RF x -> ~ present_real x) \/ (forall x, z = RF x -> ~ present_real x) -> calc_qnh z p = RF (-999)).
Proof. exact c207_qnh. Qed.
Print Assumptions C207_qnh.
Local Close Scope R_scope.
Example C207_example : present_real 280 /\ present_real (1 / 2) /\ compute_dewpoint (RF (-999)) (RF (1 / 2)) = RF (-999).
Proof. exact c207_ex. Qed.

(** C208: the coastal calibrator.  It is to use the raw values; it finds calibrated ones before the point *)
Theorem C208_raw_values_refuted : exists radius md nn nPars pars laf d fs out t y x e, 0 <= radius /\ (0 <= md)%Qc /\ fractions d laf /\ shaped d fs /\ 0 <= t < d_t d /\ within d y x e /\
  coastal_calibrator radius (Fin md) nn nPars true pars laf d fs = Ok out /\ ~ exists w, element out t y x e (Fin w) /\ coastal_rule radius md nn (pars t y x) laf d (fun p v => element fs t (fst p) (snd p) e (Fin v)) y x w.
Proof. exact c208_refuted. Qed.
Print Assumptions C208_raw_values_refuted.
Theorem C208_coastal_partial : forall radius md nn nPars dep pars laf d fs, 0 <= radius -> (0 <= md)%Qc -> fractions d laf -> shaped d fs ->
  match coastal_calibrator radius (Fin md) nn nPars dep pars laf d fs with
  | Ok out => shaped d out /\ all_present d fs /\ all_present d out /\ nPars <> 0 /\ dep = true /\
      forall t y x e, 0 <= t < d_t d -> within d y x e -> exists w, element out t y x e (Fin w) /\ coastal_rule radius md nn (pars t y x) laf d (found fs out t y x e) y x w
  | Abort => True
  | _ => False
  end.
Proof. exact c208. Qed.
Print Assumptions C208_coastal_partial.
Theorem C208_stops : forall radius md nn nPars dep pars laf d fs, 0 <= radius -> (0 <= md)%Qc -> fractions d laf -> shaped d fs -> ~ all_present d fs \/ nPars = 0 \/ dep = false -> coastal_calibrator radius (Fin md) nn nPars dep pars laf d fs = Abort.
Proof. exact c208_stops. Qed.
Print Assumptions C208_stops.
Example C208_example : fractions (dims2 2 1 1) coast2 /\ shaped (dims2 2 1 1) [row 2 1 [fz 10; fz 20]] /\
  coastal_calibrator 1 (fq (1 # 10)) false 3 true (fun _ _ _ => [fz 1; fz 1; fq (1 # 2)]) coast2 (dims2 2 1 1) [row 2 1 [fz 10; fz 20]] = Ok [row 2 1 [fz 16; fz 19]] /\
  coastal_calibrator 1 (fq (1 # 10)) true 3 true (fun _ _ _ => [fz 1; fz 2; fz 0]) coast2 (dims2 2 1 1) [row 2 1 [fz 10; fz 20]] = Ok [row 2 1 [fz 21; fz 41]] /\
  coastal_calibrator 1 (fq (1 # 10)) true 3 true (fun _ _ _ => [fz 1; fz 2; fz 0]) coast2 (dims2 2 1 1) [row 2 1 [fz 10; CMV]] = Abort.
Proof. split; [apply coast2_fractions|]. split; [apply row_shaped; reflexivity|]. split; [fcalc|]. split; [fcalc|]. reflexivity. Qed.

(** C209: altitudes are those of the nearest place in the parameter file *)
Theorem C209_altitude : forall D srt cycle h f lats lons elevs nY nX, zero_at_itself D -> straight D -> sorts_items srt -> good_history h -> all_sited h -> two_places h -> set_all h (new_pfile cycle) = Ok f ->
  0 <= nY -> 0 <= nX -> rect nY nX lats -> rect nY nX lons -> rect nY nX elevs -> (forall i j, 0 <= i < nY -> 0 <= j < nX -> exists k la lo, get2 lats i j = Ok (l_lat k) /\ get2 lons i j = Ok (l_lon k) /\ sited k la lo) ->
  exists g out, recompute_tree srt f = Ok g /\ altitude_calibrator (lift4 D) g lats lons elevs nY nX = Ok out /\ rect nY nX out /\
  forall i j la lo, 0 <= i < nY -> 0 <= j < nX -> get2 lats i j = Ok (Fin la) -> get2 lons i j = Ok (Fin lo) -> exists z, get2 out i j = Ok z /\
    ((exists e p, In e h /\ nearest_with_set D h 0 la lo (where_ e) p /\ z = l_elev (where_ e)) \/ ((forall l p, latest h 0 l p -> p = []) /\ z = Fin missing_number)).
Proof. exact c209. Qed.
Print Assumptions C209_altitude.
Theorem C209_altitude_needs_places : forall gc f lats lons elevs nY nX, location_dependent f = Ok false -> altitude_calibrator gc f lats lons elevs nY nX = Abort.
Proof. exact c209_stops. Qed.
Print Assumptions C209_altitude_needs_places.
Example C209_example : let calls := [(0, {| l_lat := fz 60; l_lon := fz 0; l_elev := fz 100 |}, [fz 1]); (0, {| l_lat := fz 50; l_lon := fz 0; l_elev := fz 200 |}, [fz 2])] in
  good_history calls /\ all_sited calls /\ two_places calls /\ exists f g, set_all calls (new_pfile true) = Ok f /\ recompute_tree sort_items f = Ok g /\
  altitude_calibrator (lift4 P_CTree.l1) g [[fz 51; fz 58]] [[fz 0; fz 0]] [[fz 7; CMV]] 1 2 = Ok [[fz 200; fz 100]].
Proof. exact c209_ex. Qed.
