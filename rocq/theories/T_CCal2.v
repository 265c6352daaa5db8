(** More calibrators of the command-line client: C157-C161. *)
From Verif Require Import Base ListLib M_Stat S_Stat M_COpt M_CUtil S_CUtil M_CCal S_CCal P_CCal M_CCal2 S_CCal2 P_CCal2.
Local Open Scope Z_scope.

(** C157: wind speeds are multiplied by the Fourier series of the direction, or 0 if that is negative; missing winds stay missing, and
    missing parameters change nothing.  The latter two are false *)
Theorem C157_wind_direction_refuted : exists sn cs pars dirs winds out, shaped (dims1 2) dirs /\ shaped (dims1 2) winds /\ (forall t y x, zlen (pars t y x) = 9) /\
  wind_direction_calibrator (lift2 sn) (lift2 cs) 9 pars (dims1 2) dirs winds = Ok out /\
  element winds 0 0 0 0 (Fin missing_number) /\ element dirs 0 0 0 0 (fz 90) /\ Forall (fun v => ~ missing v) (pars 0 0 0) /\ (exists w, element out 0 0 0 0 w /\ ~ missing w) /\
  element winds 1 0 0 0 (fz 5) /\ element dirs 1 0 0 0 (fz 90) /\ Exists missing (pars 1 0 0) /\ (exists w, element out 1 0 0 0 w /\ ~ missing w /\ w <> fz 5).
Proof. exact c157_refuted. Qed.
Print Assumptions C157_wind_direction_refuted.
Theorem C157_wind_direction_partial : forall sn cs pars d dirs winds, shaped d dirs -> shaped d winds -> (forall t y x, zlen (pars t y x) = 9) ->
  exists out, wind_direction_calibrator (lift2 sn) (lift2 cs) 9 pars d dirs winds = Ok out /\ shaped d out /\
  forall t y x e dir v, 0 <= t < d_t d -> within d y x e -> element dirs t y x e dir -> element winds t y x e v ->
    exists w, element out t y x e w /\ (missing dir -> w = v) /\
      forall dq vq p, dir = Fin dq -> v = Fin vq -> dq <> missing_number -> vq <> missing_number -> pars t y x = map Fin p -> no_missing p ->
        exists factor, w = Fin (factor * vq)%Qc /\ (0 <= fourier sn cs p dq -> factor = fourier sn cs p dq)%Qc /\ (fourier sn cs p dq < 0 -> factor = 0)%Qc.
Proof. exact c157. Qed.
Print Assumptions C157_wind_direction_partial.
Example C157_example : wind_direction_calibrator (lift2 (fun k q => (q * qz k)%Qc)) (lift2 (fun _ _ => 1%Qc)) 9 (fun _ _ _ => map fz [1; 2; 0; 0; 3; 0; 0; 0; 0]) (dims1 2) (map field1 [fz 5; CMV]) (map field1 [fz 10; fz 10]) =
  Ok (map field1 [fz 140; fz 10]).
Proof. vcalc. Qed.

(** C158: regression gives the polynomial, or the linear combination of the predictors, and is missing when anything is.  False for missing predictors *)
Theorem C158_regression_refuted : exists pars variables fs out w, shaped (dims1 1) fs /\ (forall p fs', znth variables p = Ok (Some fs') -> shaped (dims1 1) fs') /\
  regression_calibrator (zlen variables) pars variables (dims1 1) fs = Ok out /\ (forall t y x, zlen (pars t y x) = zlen variables /\ Forall (fun v => ~ missing v) (pars t y x)) /\
  element fs 0 0 0 0 (fz 7) /\ predictor_missing variables 0 0 0 0 /\ element out 0 0 0 0 w /\ ~ missing w.
Proof. exact c158_refuted. Qed.
Print Assumptions C158_regression_refuted.
Theorem C158_polynomial : forall numParameters pars d fs, shaped d fs -> numParameters <> 0 ->
  exists out, regression_calibrator numParameters pars [] d fs = Ok out /\ shaped d out /\
  forall t y x e v, 0 <= t < d_t d -> within d y x e -> element fs t y x e v -> exists w, element out t y x e w /\
    (missing v \/ Exists missing (pars t y x) -> is_missing_value w) /\
    (forall q cs, v = Fin q -> q <> missing_number -> pars t y x = map Fin cs -> no_missing cs -> w = Fin (polynomial cs q)).
Proof. exact c158. Qed.
Print Assumptions C158_polynomial.
Theorem C158_regression_partial : forall pars variables d fs, shaped d fs -> variables <> [] -> (forall p fs', znth variables p = Ok (Some fs') -> shaped d fs') -> (forall t y x, zlen (pars t y x) = zlen variables) ->
  exists out, regression_calibrator (zlen variables) pars variables d fs = Ok out /\ shaped d out /\
  forall t y x e v, 0 <= t < d_t d -> within d y x e -> element fs t y x e v -> exists w, element out t y x e w /\
    (missing v \/ Exists missing (pars t y x) -> is_missing_value w) /\
    (forall cs xs, ~ missing v -> pars t y x = map Fin cs -> no_missing cs -> predictors variables t y x e xs -> w = Fin (combination cs xs)).
Proof. exact c158_multi. Qed.
Print Assumptions C158_regression_partial.
Example C158_example : polynomial [qz 1; qz 2; qz 3] (qz 2) = qz 17 /\
  regression_calibrator 3 (fun _ _ _ => map fz [1; 2; 3]) [] (dims1 2) (map field1 [fz 2; CMV]) = Ok (map field1 [fz 17; CMV]) /\
  regression_calibrator 2 (fun _ _ _ => map fz [1; 2]) [None; Some (map field1 [fz 5])] (dims1 1) (map field1 [fz 2]) = Ok (map field1 [fz 11]) /\
  predictors [None; Some (map field1 [fz 5])] 0 0 0 0 [qz 1; qz 5].
Proof.
  split; [vcalc|]. split; [vcalc|]. split; [vcalc|]. split; [reflexivity|]. intros p o H. destruct (Z.eq_dec p 0) as [->|]; [injection H as <-; reflexivity|].
  destruct (Z.eq_dec p 1) as [->|]; [injection H as <-; split; [apply (element1 [fz 5]); reflexivity|discriminate]|].
  apply znth_range in H. exfalso. change (0 <= p < 2) in H. lia.
Qed.

(** C159: training finds the coefficients with the least squared error, from the pairs of observations and ensemble means that are present.
    False when all forecasts are the same *)
Theorem C159_training_refuted : exists E data, training_pairs data <> [] /\ regression_train E 1 true 0 data = Ok [NaN; NaN].
Proof. exact c159_refuted. Qed.
Print Assumptions C159_training_refuted.
Theorem C159_training_mean : forall E ic data, let l := training_pairs data in l <> [] ->
  exists a, regression_train E 0 ic 0 data = Ok [Fin a] /\ a = qmean (map fst l) /\ forall a', (squared_error l a 0 <= squared_error l a' 0)%Qc.
Proof. exact c159_mean. Qed.
Print Assumptions C159_training_mean.
Theorem C159_training_partial : forall E data, let l := training_pairs data in (exists p p', In p l /\ In p' l /\ snd p <> snd p') ->
  exists a b, regression_train E 1 true 0 data = Ok [Fin a; Fin b] /\ forall a' b', (squared_error l a b <= squared_error l a' b')%Qc.
Proof. exact c159_line. Qed.
Print Assumptions C159_training_partial.
Theorem C159_training_slope : forall E data, let l := training_pairs data in (exists p, In p l /\ snd p <> 0%Qc) ->
  exists b, regression_train E 1 false 0 data = Ok [Fin 0%Qc; Fin b] /\ forall b', (squared_error l 0 b <= squared_error l 0 b')%Qc.
Proof. exact c159_slope. Qed.
Print Assumptions C159_training_slope.
Theorem C159_arguments_checked : forall E order ic nv data, 1 < order \/ order < 0 \/ 0 < nv \/ training_pairs data = [] -> regression_train E order ic nv data = Abort.
Proof. exact c159_checks. Qed.
Print Assumptions C159_arguments_checked.
Example C159_example : training_pairs [(fz 3, [fz 0; fz 2]); (CMV, [fz 1]); (fz 7, [fz 3; CMV])] = [(qz 3, qz 1); (qz 7, qz 3)] /\
  regression_train E0 1 true 0 [(fz 3, [fz 0; fz 2]); (CMV, [fz 1]); (fz 7, [fz 3; CMV])] = Ok [fz 1; fz 2].
Proof. split; vcalc. Qed.

(** C160: masks keep, or remove, the points within the radius of some location, with the radii of the time.  False: a point that was once
    within a radius stays so *)
Theorem C160_mask_refuted : exists n dist radius fs out v, shaped (dims1 2) fs /\ mask_calibrator true true n dist radius (dims1 2) fs = Ok out /\ ~ near n (dist 0 0) (radius 1) /\ element fs 1 0 0 0 v /\ ~ missing v /\ element out 1 0 0 0 v.
Proof. exact c160_refuted. Qed.
Print Assumptions C160_mask_refuted.
Theorem C160_mask_partial : forall keep n dist radius d fs, shaped d fs -> exists out, mask_calibrator keep false n dist radius d fs = Ok out /\ shaped d out /\
  forall t y x e v, 0 <= t < d_t d -> within d y x e -> element fs t y x e v -> exists w, element out t y x e w /\
    (near n (dist y x) (radius 0) -> if keep then w = v else is_missing_value w) /\ (~ near n (dist y x) (radius 0) -> if keep then is_missing_value w else w = v).
Proof. exact c160. Qed.
Print Assumptions C160_mask_partial.
Theorem C160_mask_any_file : forall keep td n dist radius d fs, shaped d fs -> exists out, mask_calibrator keep td n dist radius d fs = Ok out /\ shaped d out /\
  forall t y x e v, 0 <= t < d_t d -> within d y x e -> element fs t y x e v -> exists w, element out t y x e w /\
    ((keep = true <-> reached td n (dist y x) radius t) -> w = v) /\ (~ (keep = true <-> reached td n (dist y x) radius t) -> is_missing_value w).
Proof. exact c160_gen. Qed.
Print Assumptions C160_mask_any_file.
Example C160_example : near 2 (fun k => fz (5 * k + 1)) (fun _ => fz 3) /\
  mask_calibrator true false 2 (fun i j k => fz (5 * k + 1)) (fun _ _ => fz 3) (dims1 1) (map field1 [fz 7]) = Ok (map field1 [fz 7]) /\
  mask_calibrator false false 2 (fun i j k => fz (5 * k + 1)) (fun _ _ => fz 3) (dims1 1) (map field1 [fz 7]) = Ok (map field1 [CMV]).
Proof. split; [|split; vcalc]. exists 0, (qz 1). split; [lia|]. split; [vcalc|]. split; [discriminate|]. right. exists (qz 3). split; [reflexivity|vm_compute; reflexivity]. Qed.

(** C161: points near a location have its value, the last such location if there are several; other points are unchanged *)
Theorem C161_override : forall radius (maxElevDiff : option Qc) n nn values pelev elev d fs, shaped d fs -> 0 <= n -> (forall m, maxElevDiff = Some m -> m <> missing_number) ->
  exists out, override_calibrator 1 true radius (match maxElevDiff with Some m => Fin m | None => Fin missing_number end) n nn values pelev elev d fs = Ok out /\ shaped d out /\
  forall t y x e v, 0 <= t < d_t d -> within d y x e -> element fs t y x e v -> exists w, element out t y x e w /\
    ((forall k, 0 <= k < n -> ~ overrides radius maxElevDiff nn (values t) pelev elev d k y x) -> w = v) /\
    (forall k, 0 <= k < n -> overrides radius maxElevDiff nn (values t) pelev elev d k y x -> (forall k', k < k' < n -> ~ overrides radius maxElevDiff nn (values t) pelev elev d k' y x) -> w = values t k).
Proof. exact c161. Qed.
Print Assumptions C161_override.
Theorem C161_arguments_checked : forall np ld radius med n nn values pelev elev d fs, np <> 1 \/ ld = false -> override_calibrator np ld radius med n nn values pelev elev d fs = Abort.
Proof. exact c161_checks. Qed.
Print Assumptions C161_arguments_checked.
Example C161_example :
  let d := {| d_y := 3; d_x := 4; d_e := 1; d_t := 1 |} in
  let f := {| f_values := repeat (fz 0) 12; f_ny := 3; f_nx := 4; f_ne := 1 |} in
  override_calibrator 1 true 1 (fz 50) 2 (fun k => (1, k + 1)) (fun t k => fz (k + 7)) (fun k => fz 100) (fun y x => fz (100 + 30 * y)) d [f] =
    Ok [{| f_values := [fz 7; fz 8; fz 8; fz 8; fz 7; fz 8; fz 8; fz 8; fz 0; fz 0; fz 0; fz 0]; f_ny := 3; f_nx := 4; f_ne := 1 |}].
Proof. vcalc. Qed.
