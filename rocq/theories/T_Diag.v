(** Diagnostics: C65, C66, C67, C87, C88, C89, C90, C91. *)
From Coq Require Import Reals Lra.
From Verif Require Import RBase RPow P_RBase M_Diag M_RelHum M_Wind32 S_RelHum S_Diag P_Wind P_Wind32 P_Press P_Humid P_RelHum P_DiagVec Base.
Local Open Scope R_scope.

(** C65: speed and direction are polar coordinates; direction in degrees with an error of at most 1e-5 (gridpp::pi is a float) *)
Theorem C65_wind_speed : forall x y, exists s, wind_speed (RF x) (RF y) = RF s /\ 0 <= s /\ s * s = x * x + y * y /\ (s = 0 <-> x = 0 /\ y = 0) /\
  (forall k, wind_speed (RF (k * x)) (RF (k * y)) = RF (Rabs k * s)).
Proof. exact c65_speed. Qed.
Print Assumptions C65_wind_speed.
Theorem C65_wind_direction : forall nx ny x y s, wind_speed (RF x) (RF y) = RF s ->
  exists d theta, wind_direction nx ny (RF x) (RF y) = RF d /\ 0 <= d < 360 /\ 0 <= theta < 360 /\ Rabs (d - theta) <= 1 / 100000 /\
    x = - s * sin (theta * PI / 180) /\ y = - s * cos (theta * PI / 180).
Proof. exact c65_direction. Qed.
Print Assumptions C65_wind_direction.
Theorem C65_wind_determined : forall nx ny nx' ny' x y x' y', wind_speed (RF x) (RF y) = wind_speed (RF x') (RF y') ->
  wind_direction nx ny (RF x) (RF y) = wind_direction nx' ny' (RF x') (RF y') -> x = x' /\ y = y'.
Proof. exact c65_determined. Qed.
Print Assumptions C65_wind_determined.
Example C65_example : wind_speed (RF 3) (RF 4) = RF 5 /\ exists d, wind_direction false false (RF (-1)) (RF 0) = RF d /\ Rabs (d - 90) <= 1 / 100000.
Proof.
  split.
  - destruct (C65_wind_speed 3 4) as (s & E & P & Q & _). rewrite E. f_equal. nra.
  - pose proof gpi_bounds as G. exists (PI / 2 * 180 / gpi). split.
    + unfold wind_direction, rz. cbn [rneg]. unfold ratan2, Ratan2. rewrite Rltb_f by lra. rewrite Rltb_f by lra. rewrite Rltb_t by lra. cbn [rmul]. rewrite rdiv_RF by lra. cbn [rltb].
      rewrite Rltb_f; [reflexivity|]. pose proof PI_bounds. apply Rmult_le_pos; [lra|]. left. apply Rinv_0_lt_compat. lra.
    + pose proof PI_bounds. assert (P : 0 < / gpi) by (apply Rinv_0_lt_compat; lra). replace (PI / 2 * 180 / gpi - 90) with (90 * (PI - gpi) * / gpi) by (field; lra).
      assert (/ gpi < / 3) by (apply Rinv_lt_contravar; lra). apply Rabs_le. split; nra.
Qed.

(** C66: pressure at another elevation; qnh *)
Theorem C66_pressure :
  (forall a b p T, 0 < T -> exists q, pressure (RF a) (RF b) (RF p) (RF T) = RF q /\ (a = b -> q = p) /\ (0 < p -> 0 < q) /\
     (forall b', 0 < p -> b < b' -> exists q', pressure (RF a) (RF b') (RF p) (RF T) = RF q' /\ q' < q) /\
     (forall c, pressure (RF b) (RF c) (RF q) (RF T) = pressure (RF a) (RF c) (RF p) (RF T))) /\
  (forall a b p T, r_valid a = false \/ r_valid b = false \/ r_valid p = false \/ r_valid T = false -> pressure a b p T = RMV).
Proof. exact c66_pressure. Qed.
Print Assumptions C66_pressure.
Theorem C66_qnh :
  (forall p, 0 < p -> qnh (RF p) (RF 0) = RF p) /\
  (forall p a, 0 < p -> 0 <= a -> exists x, qnh (RF p) (RF a) = RF x /\ p <= x) /\
  (forall p a b x, 0 < p -> a < b -> qnh (RF p) (RF a) = RF x -> exists y, qnh (RF p) (RF b) = RF y /\ x < y) /\
  (forall p p' a x, 0 < p -> p < p' -> qnh (RF p) (RF a) = RF x -> exists y, qnh (RF p') (RF a) = RF y /\ x < y) /\
  (forall p a, r_valid p = false \/ (r_valid a = false /\ p <> RF 0) -> qnh p a = RMV).
Proof. exact c66_qnh. Qed.
Print Assumptions C66_qnh.
Example C66_example : pressure (RF 100) (RF 100) (RF 101325) (RF 288) = RF 101325 /\ pressure (RF 0) (RF 1) RMV (RF 288) = RMV /\ qnh (RF 98000) (RF 0) = RF 98000.
Proof.
  split; [destruct (proj1 C66_pressure 100 100 101325 288) as (q & E & S & _); [lra|]; rewrite E; f_equal; apply S; reflexivity|]. split; [reflexivity|]. apply C66_qnh. lra.
Qed.

(** C67: relative humidity is the ratio of saturation pressures and in [0,1]; the dew point never exceeds the temperature *)
Theorem C67_relative_humidity :
  (forall t d, exists r, relative_humidity (Fin t) (Fin d) = Ok (Fin r) /\ (0 <= r)%Qc /\ (r <= 1)%Qc /\ ((t <= d)%Qc -> r = 1%Qc) /\
     ((d < t)%Qc -> exists es e, saturation t es /\ saturation d e /\ (0 < es)%Qc /\ r = (e / es)%Qc)) /\
  (forall t d d' r r', (d <= d')%Qc -> relative_humidity (Fin t) (Fin d) = Ok (Fin r) -> relative_humidity (Fin t) (Fin d') = Ok (Fin r') -> (r <= r')%Qc) /\
  (forall t t' d r r', (t <= t')%Qc -> relative_humidity (Fin t) (Fin d) = Ok (Fin r) -> relative_humidity (Fin t') (Fin d) = Ok (Fin r') -> (r' <= r)%Qc) /\
  (forall t d, is_valid t = false \/ is_valid d = false -> relative_humidity t d = Ok MV).
Proof. exact c67_relhum. Qed.
Print Assumptions C67_relative_humidity.
Theorem C67_dewpoint :
  (forall t rh, exists d, dewpoint (RF t) (RF rh) = RF d /\ d <= t) /\
  (forall t rh, r_valid t = false \/ r_valid rh = false -> dewpoint t rh = RMV).
Proof. exact c67_dewpoint. Qed.
Print Assumptions C67_dewpoint.
Example C67_example : relative_humidity (Fin (Q2Qc (27816 # 100))) (Fin (Q2Qc (27316 # 100))) = Ok (Fin (Q2Qc (61078 # 87192))) /\
  exists d, dewpoint (RF 283) (RF (1 / 2)) = RF d /\ d <= 283.
Proof. split; [vcalc|]. apply C67_dewpoint. Qed.

(** C87: the direction is below 360 in float arithmetic.  False: it can be exactly 360, never more. *)
Theorem C87_direction_360_refuted : exists xwind ywind : R, is32 xwind /\ is32 ywind /\ let angle := Ratan2 true false (- xwind) (- ywind) in
  angle < 0 /\ forall a, (2 * angle <= a <= angle / 2) -> wind_direction32 a = 360.
Proof. exact c87_refuted. Qed.
Print Assumptions C87_direction_360_refuted.
Theorem C87_direction_range_partial : forall a, - (32 / 10) <= a <= 32 / 10 -> 0 <= wind_direction32 a <= 360.
Proof. exact c87_range. Qed.
Print Assumptions C87_direction_range_partial.
Example C87_example : 0 <= wind_direction32 (-3) <= 360.
Proof. apply C87_direction_range_partial. lra. Qed.

(** C88: drier air has a lower dew point.  False at relative humidity 0. *)
Theorem C88_dewpoint_dry_refuted : exists t rh, 250 < t < 310 /\ 0 < rh /\ rh <= 1 /\ exists d d', dewpoint (RF t) (RF 0) = RF d /\ dewpoint (RF t) (RF rh) = RF d' /\ d' < d.
Proof. exact c88_refuted. Qed.
Print Assumptions C88_dewpoint_dry_refuted.
Theorem C88_dewpoint_monotone_partial : forall t rh rh', 3011 / 100 < t <= 4000 -> 0 < rh -> rh <= rh' <= 1 ->
  exists d d', dewpoint (RF t) (RF rh) = RF d /\ dewpoint (RF t) (RF rh') = RF d' /\ d <= d'.
Proof. exact c88_mono. Qed.
Print Assumptions C88_dewpoint_monotone_partial.
Example C88_example : exists d d', dewpoint (RF 280) (RF (3 / 10)) = RF d /\ dewpoint (RF 280) (RF (6 / 10)) = RF d' /\ d <= d'.
Proof. apply C88_dewpoint_monotone_partial; lra. Qed.

(** C89: the wet-bulb temperature lies between dew point and temperature.  False near saturation; true up to 90 % humidity and 50 degrees. *)
Theorem C89_wetbulb_exceeds_refuted : exists t p rh w, 250 < t < 310 /\ 0 < p /\ 0 < rh <= 1 /\ wetbulb (RF t) (RF p) (RF rh) = RF w /\ t < w.
Proof. exact c89_refuted. Qed.
Print Assumptions C89_wetbulb_exceeds_refuted.
Theorem C89_wetbulb_between_partial : forall t p rh, 0 < p -> 0 < rh <= 1 -> 3011 / 100 < t <= 4000 ->
  exists w, wetbulb (RF t) (RF p) (RF rh) = RF w /\
    (rh <= 9 / 10 -> t <= 32315 / 100 -> exists d, dewpoint (RF t) (RF rh) = RF d /\ d < w < t).
Proof. exact c89_between. Qed.
Print Assumptions C89_wetbulb_between_partial.
Theorem C89_wetbulb_missing : forall t p rh, r_valid t = false \/ r_valid p = false \/ r_valid rh = false -> wetbulb t p rh = RMV.
Proof. exact c89_missing. Qed.
Print Assumptions C89_wetbulb_missing.
Theorem C89_wetbulb_unphysical : forall t p rh, rh <= 0 \/ t <= 3011 / 100 -> wetbulb (RF t) (RF p) (RF rh) = RMV.
Proof. exact c89_bounds. Qed.
Print Assumptions C89_wetbulb_unphysical.
Example C89_example : exists w d, wetbulb (RF 293) (RF 100000) (RF (1 / 2)) = RF w /\ dewpoint (RF 293) (RF (1 / 2)) = RF d /\ d < w < 293.
Proof.
  destruct (C89_wetbulb_between_partial 293 100000 (1 / 2)) as (w & E & H); [lra|lra|lra|]. destruct H as (d & E' & H); [lra|lra|]. exists w, d. auto.
Qed.

(** C90: sea-level pressure of accepted arguments is a number.  False for dry air below 50 m. *)
Theorem C90_slp_dry_refuted : exists ps alt t rh, slp_accepts ps t rh RNaN /\ 0 < ps /\ 0 < alt /\ 250 < t < 310 /\ sea_level_pressure (RF ps) (RF alt) (RF t) rh RNaN = Ok RNaN.
Proof. exact c90_refuted. Qed.
Print Assumptions C90_slp_dry_refuted.
Theorem C90_slp_partial :
  (forall ps alt t rh dew, slp_accepts ps t rh dew -> 50 <= alt -> exists x, sea_level_pressure (RF ps) (RF alt) (RF t) rh dew = Ok (RF x) /\ ps <= x) /\
  (forall ps t rh dew, slp_accepts ps t rh dew -> 0 < ps -> 0 < t -> (r_valid rh = false \/ (rh <> RF 0 /\ 3585 / 100 < t <= 37315 / 100)) ->
     sea_level_pressure (RF ps) (RF 0) (RF t) rh dew = Ok (RF ps)) /\
  (forall ps alt t rh dew, r_valid alt = false \/ r_valid t = false \/ (exists x, x < 0 /\ (ps = RF x \/ t = RF x \/ rh = RF x \/ dew = RF x)) \/ (exists x, 1 < x /\ rh = RF x) ->
     sea_level_pressure ps alt t rh dew = Throw RuntimeError).
Proof. exact c90_all. Qed.
Print Assumptions C90_slp_partial.
Example C90_example : sea_level_pressure (RF 100000) (RF 0) (RF 280) (RF (1 / 2)) RNaN = Ok (RF 100000) /\ sea_level_pressure (RF 100000) RMV (RF 280) (RF (1 / 2)) RNaN = Throw RuntimeError.
Proof.
  split; [|apply C90_slp_partial; left; reflexivity]. apply C90_slp_partial; try lra.
  - unfold slp_accepts. repeat split; try lra; try discriminate. intros _. exists (1 / 2). split; [reflexivity|lra].
  - right. split; [|lra]. intros E. injection E as E. lra.
Qed.

(** C91: array versions apply the scalar version to each element.  False for sea_level_pressure when an element raises. *)
Theorem C91_arrays_two : elementwise2 wind_speed_vec (fun _ => wind_speed) /\ (forall sx sy, elementwise2 (wind_direction_vec sx sy) (fun i => wind_direction (sx (Z.of_nat i)) (sy (Z.of_nat i)))) /\
  elementwise2 qnh_vec (fun _ => qnh) /\ elementwise2 dewpoint_vec (fun _ => dewpoint).
Proof. exact c91_two. Qed.
Print Assumptions C91_arrays_two.
Theorem C91_relative_humidity_array : exists f, (forall t d, relative_humidity t d = Ok (f t d)) /\ elementwise2 relative_humidity_vec (fun _ => f).
Proof. exact c91_relhum. Qed.
Print Assumptions C91_relative_humidity_array.
Theorem C91_arrays_more : elementwise3 wetbulb_vec wetbulb /\ elementwise4 pressure_vec pressure.
Proof. exact c91_more. Qed.
Print Assumptions C91_arrays_more.
Theorem C91_slp_array_partial : elementwise5 sea_level_pressure_vec sea_level_pressure.
Proof. exact c91_slp. Qed.
Print Assumptions C91_slp_array_partial.
Theorem C91_slp_array_aborts_refuted : exists ps altitude temperature rh dew,
  sea_level_pressure ps altitude temperature rh dew = Throw RuntimeError /\ sea_level_pressure_vec [ps] [altitude] [temperature] [rh] [dew] = Abort.
Proof. exact c91_slp_refuted. Qed.
Print Assumptions C91_slp_array_aborts_refuted.
Example C91_example : exists u v, wind_speed_vec [RF 3; RNaN] [RF 4; RF 1] = Ok [u; v] /\ v = RNaN /\ wind_speed_vec [RF 3] [] = Throw InvalidArgument.
Proof. do 2 eexists. split; [reflexivity|]. split; reflexivity. Qed.
