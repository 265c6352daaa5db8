(** Statistics, interpolation, locations and fields of the command-line client: C142-C148. *)
From Verif Require Import Base M_Stat S_Stat M_Interp S_Interp M_COpt M_CUtil S_CUtil P_CUtil.
Local Open Scope Z_scope.

(** C142: the client's statistics are the library's, with -999 in place of NaN *)
Theorem C142_statistics_agree : forall E a c s q, same_statistic c s -> exists r, calc_statistic E (map from_client a) s = Ok r /\ calculate_stat E a c q = Ok (to_client r).
Proof. exact c142. Qed.
Print Assumptions C142_statistics_agree.
Theorem C142_quantiles_agree : forall E a q, (0 <= q <= 1)%Qc -> exists r, calc_quantile (map from_client a) (Fin q) = Ok r /\ calculate_stat E a CQuantile (Fin q) = Ok (to_client r).
Proof. exact c142_quantile. Qed.
Print Assumptions C142_quantiles_agree.
Example C142_example : calculate_stat E0 [fz 3; fz (-999); fz 1; NaN; fz 8] CMedian (fz 0) = Ok (fz 3) /\
  calculate_stat E0 [fz 3; fz (-999); fz 1] CQuantile (fq (3#4)) = Ok (fq (5#2)).
Proof. split; vcalc. Qed.

(** C143: a statistic is missing exactly when no value is present.  False: the mean of -998 and -1000 is -999 *)
Theorem C143_missing_result_refuted : exists E a, present a <> [] /\ calculate_stat E a CMean (Fin 0%Qc) = Ok (Fin missing_number) /\
  calculate_stat E a CMedian (Fin 0%Qc) = Ok (Fin missing_number).
Proof. exact c143_refuted. Qed.
Print Assumptions C143_missing_result_refuted.
Theorem C143_missing_result_partial : forall E a c q r, (c = CQuantile -> 0 <= q <= 1)%Qc -> sqrt_nonneg E -> present a <> [] ->
  (c = CMin \/ c = CMax \/ c = CStd \/ (c = CSum /\ forall x, In x (present a) -> 0 <= x)%Qc \/ (c <> CSum /\ forall x, In x (present a) -> missing_number < x)%Qc) ->
  calculate_stat E a c (Fin q) = Ok r -> exists v, r = Fin v /\ v <> missing_number.
Proof. exact c143_present. Qed.
Print Assumptions C143_missing_result_partial.
Theorem C143_nothing_present : forall E a c q, present a = [] -> calculate_stat E a c q = Ok (Fin missing_number).
Proof. exact c143_empty. Qed.
Print Assumptions C143_nothing_present.
Example C143_example : sqrt_nonneg E0 /\ present [fz (-5); fz (-999)] = [qz (-5)] /\ calculate_stat E0 [fz (-5); fz (-999)] CMean (fz 0) = Ok (fz (-5)).
Proof. split; [intros x H; exact H|]. split; [reflexivity|vcalc]. Qed.

(** C144: quantile levels: memory outside the array is read exactly when the level is outside [0,1] and two values are present *)
Theorem C144_quantile_levels : forall E a q, (calculate_stat E a CQuantile (Fin q) = UB <-> 2 <= zlen (present a) /\ ~ (0 <= q <= 1)%Qc) /\
  ((exists r, calculate_stat E a CQuantile (Fin q) = Ok r) <-> zlen (present a) < 2 \/ (0 <= q <= 1)%Qc).
Proof. exact c144. Qed.
Print Assumptions C144_quantile_levels.
Example C144_example : calculate_stat E0 [fz 3; fz 1] CQuantile CMV = UB /\ calculate_stat E0 [fz 3; fz (-999)] CQuantile CMV = Ok (fz 3).
Proof. split; vcalc. Qed.

(** C145: the client's interpolation agrees with the library's.  False where knots coincide at an end, and with a knot at -999 *)
Theorem C145_interpolation_refuted : exists x X Y, qsorted X /\ zlen X = zlen Y /\ no_missing X /\
  client_interpolate (Fin x) (map Fin X) (map Fin Y) <> interpolate (Fin x) (map Fin X) (map Fin Y).
Proof. exact c145_refuted. Qed.
Print Assumptions C145_interpolation_refuted.
Theorem C145_knot_missing_refuted : exists x X Y, increasing X /\ zlen X = zlen Y /\ client_interpolate (Fin x) (map Fin X) (map Fin Y) = Abort /\
  interpolate (Fin x) (map Fin X) (map Fin Y) = Ok (Fin (qz 1)).
Proof. exact c145_missing. Qed.
Print Assumptions C145_knot_missing_refuted.
Theorem C145_interpolation_partial : forall x X Y, increasing X -> X <> [] -> zlen X = zlen Y -> no_missing X ->
  client_interpolate (Fin x) (map Fin X) (map Fin Y) = interpolate (Fin x) (map Fin X) (map Fin Y).
Proof. exact c145. Qed.
Print Assumptions C145_interpolation_partial.
Theorem C145_curve : forall x X Y, qsorted X -> X <> [] -> zlen X = zlen Y -> no_missing X ->
  exists a b r, bracket X x a b /\ client_interpolate (Fin x) (map Fin X) (map Fin Y) = Ok (Fin r) /\ curve_value X Y x a b r.
Proof. exact c145_value. Qed.
Print Assumptions C145_curve.
Example C145_example : increasing [qz 0; qz 2; qz 3] /\ no_missing [qz 0; qz 2; qz 3] /\
  client_interpolate (fz 1) (map Fin [qz 0; qz 2; qz 3]) (map Fin [qz 5; qz 9; qz 4]) = Ok (fz 7).
Proof. split; [repeat constructor; vm_compute; reflexivity|]. split; [repeat constructor; discriminate|vcalc]. Qed.

(** C146: the orders on locations are strict weak orders, with the right notion of equality.  False with NaN *)
Theorem C146_location_order_refuted : exists a b c, loc_ltb a b = false /\ loc_ltb b a = false /\ loc_ltb b c = false /\ loc_ltb c b = false /\ loc_ltb a c = true.
Proof. exact c146_refuted. Qed.
Print Assumptions C146_location_order_refuted.
Theorem C146_location_order_partial : strict_weak proper loc_ltb /\
  (forall a b, proper a -> proper b -> (loc_ltb a b = false /\ loc_ltb b a = false <-> loc_eqb a b = true) /\
     (loc_eqb a b = true <-> l_lat a = l_lat b /\ l_lon a = l_lon b /\ l_elev a = l_elev b)).
Proof. exact c146_order. Qed.
Print Assumptions C146_location_order_partial.
Theorem C146_place_order_partial : strict_weak proper loc_ltb2 /\ (forall a b, proper a -> proper b -> (loc_ltb2 a b = false /\ loc_ltb2 b a = false <-> same_place a b)).
Proof. exact c146_place. Qed.
Print Assumptions C146_place_order_partial.
Example C146_example : proper {| l_lat := fz 60; l_lon := fz 10; l_elev := fz 5 |} /\ proper {| l_lat := fz 60; l_lon := fz 10; l_elev := fz 7 |} /\
  loc_ltb {| l_lat := fz 60; l_lon := fz 10; l_elev := fz 5 |} {| l_lat := fz 60; l_lon := fz 10; l_elev := fz 7 |} = true /\
  loc_ltb2 {| l_lat := fz 60; l_lon := fz 10; l_elev := fz 5 |} {| l_lat := fz 60; l_lon := fz 10; l_elev := fz 7 |} = false.
Proof. repeat split; try discriminate; vm_compute; reflexivity. Qed.

(** C147: fields are arrays: a value that was set is read again, others are unchanged, and nothing outside is accessed *)
Theorem C147_new_field : forall nY nX nE v, (0 <= nY -> 0 <= nX -> 0 <= nE -> exists f, new_field nY nX nE v = Ok f /\ field_ok f /\ f_ny f = nY /\ f_nx f = nX /\ f_ne f = nE /\
    forall y x e, inside f y x e -> f_get f y x e = Ok v) /\ (nY < 0 \/ nX < 0 \/ nE < 0 -> new_field nY nX nE v = Abort).
Proof. exact c147_new. Qed.
Print Assumptions C147_new_field.
Theorem C147_set_get : forall f y x e v, field_ok f -> inside f y x e -> exists g, f_set f y x e v = Ok g /\ field_ok g /\ same_size f g /\
  f_get g y x e = Ok v /\ forall y' x' e', inside f y' x' e' -> (y', x', e') <> (y, x, e) -> f_get g y' x' e' = f_get f y' x' e'.
Proof. exact c147_set. Qed.
Print Assumptions C147_set_get.
Theorem C147_outside : forall f y x e v, field_ok f -> ~ inside f y x e -> f_get f y x e = Abort /\ f_set f y x e v = Abort.
Proof. exact c147_outside. Qed.
Print Assumptions C147_outside.
Theorem C147_members : forall f y x, field_ok f -> 0 <= y < f_ny f -> 0 <= x < f_nx f -> 0 < f_ne f ->
  exists l, f_ens f y x = Ok l /\ zlen l = f_ne f /\ forall e, 0 <= e < f_ne f -> znth l e = f_get f y x e.
Proof. exact c147_members. Qed.
Print Assumptions C147_members.
Example C147_example : exists f g, new_field 2 3 2 (fz 0) = Ok f /\ field_ok f /\ inside f 1 2 0 /\ f_set f 1 2 0 (fz 7) = Ok g /\ f_get g 1 2 0 = Ok (fz 7) /\ f_ens g 1 2 = Ok [fz 7; fz 0].
Proof. eexists. eexists. split; [reflexivity|]. split; [repeat split; cbn; lia|]. split; [repeat split; cbn; lia|]. split; [reflexivity|]. split; reflexivity. Qed.

(** C148: equal fields have equal values everywhere.  False for fields of different sizes *)
Theorem C148_equal_fields_refuted : exists f g, field_ok f /\ field_ok g /\ f_eqb f g = true /\ f_get f 0 1 0 = Ok (fz 2) /\ f_get g 0 1 0 = Abort.
Proof. exact c148_refuted. Qed.
Print Assumptions C148_equal_fields_refuted.
Theorem C148_equal_fields_partial : forall f g, field_ok f -> field_ok g -> same_size f g -> Forall number (f_values f) ->
  (f_eqb f g = true <-> forall y x e, f_get f y x e = f_get g y x e).
Proof. exact c148. Qed.
Print Assumptions C148_equal_fields_partial.
Example C148_example : exists f, new_field 1 2 1 (fz 0) = Ok f /\ field_ok f /\ Forall number (f_values f) /\ f_eqb f f = true.
Proof. eexists. split; [reflexivity|]. split; [repeat split; cbn; lia|]. split; [repeat constructor; discriminate|reflexivity]. Qed.
