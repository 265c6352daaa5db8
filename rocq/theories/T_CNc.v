(** NetCDF files of the client: C259-C265. *)
From Coq Require Import Ascii String Lia.
From Verif Require Import Base ListLib M_COpt M_CUtil S_CUtil M_CCal S_CCal M_CDown M_CFile M_CNc S_CNc P_CNc6 P_CNc7 P_CNc8.
Local Open Scope Z_scope.

(** C259: reading.  A variable without ensemble dimension has only the first member; a negative level is not noticed *)
Theorem C259_ensemble_refuted : exists X R d v f, proper R /\ fits X R d /\ sound X v /\ available X R (n_dims v) (-999) 0 /\ find_name (x_vars X) (txt "v") = Some v /\ nc_read X R d (txt "v") (-999) 0 = Ok f /\
  within d 0 0 1 /\ n_data v (at_dims R (fun _ => 0) 0 1 0 0 (n_dims v)) = fz 5 /\ f_get f 0 0 0 = Ok (fz 5) /\ f_get f 0 0 1 = Ok CMV.
Proof. exact ensemble_missing. Qed.
Print Assumptions C259_ensemble_refuted.
Theorem C259_level_refuted : exists X R d v, proper R /\ fits X R d /\ sound X v /\ find_name (x_vars X) (txt "v") = Some v /\ nc_read X R d (txt "v") (-1) 0 = UB.
Proof. exact level_negative. Qed.
Print Assumptions C259_level_refuted.
Theorem C259_read_partial : forall X R d v name level t, proper R -> fits X R d -> sound X v -> available X R (n_dims v) level t -> find_name (x_vars X) name = Some v -> n_fill v = None -> n_scale v = None -> n_offset v = None ->
  exists f, nc_read X R d name level t = Ok f /\ of_size d f /\ forall e y x, within d y x e ->
    (forall q, covers R (n_dims v) e y x -> n_data v (at_dims R (level_in X level) t e y x (n_dims v)) = Fin q -> Fin q <> fill_float -> f_get f y x e = Ok (Fin q)) /\ (~ covers R (n_dims v) e y x -> f_get f y x e = Ok CMV).
Proof. exact read_plain. Qed.
Print Assumptions C259_read_partial.
Example C259_example : let v := plain [3; 4; 1; 0; 2] (fun i => match i with [x; l; e; _; _] => fz (100 * x + 10 * l + e) | _ => NaN end) in
  available (exX v) exR (n_dims v) 1 0 /\ sound (exX v) v /\ nc_read (exX v) exR exd (txt "v") 1 0 = Ok (fld 1 2 2 [fz 10; fz 11; fz 110; fz 111]).
Proof. split; [split; [intros _; cmp|]; intros k (H & N1 & N2 & N3 & N4); cbn in H, N1, N2, N3, N4; assert (k = 4) as -> by lia; split; [cmp|intros _; right; cmp]|]. split; [okv|vm_compute; reflexivity]. Qed.

(** C260: missing values, scale and offset.  With a missing value of -999 nothing is missing *)
Theorem C260_fill_refuted : exists X R d v f s, proper R /\ fits X R d /\ sound X v /\ available X R (n_dims v) (-999) 0 /\ find_name (x_vars X) (txt "v") = Some v /\ packed v s 0 (qz (-999)) /\ nc_read X R d (txt "v") (-999) 0 = Ok f /\
  within d 0 0 0 /\ n_fill v = Some (n_data v (at_dims R (fun _ => 0) 0 0 0 0 (n_dims v))) /\ f_get f 0 0 0 = Ok (fz (-1998)).
Proof. exact fill_scaled. Qed.
Print Assumptions C260_fill_refuted.
Theorem C260_packed_partial : forall X R d v name level t s o m, proper R -> fits X R d -> sound X v -> available X R (n_dims v) level t -> find_name (x_vars X) name = Some v -> packed v s o m -> m <> qz (-999) ->
  exists f, nc_read X R d name level t = Ok f /\ of_size d f /\ forall e y x q, within d y x e -> covers R (n_dims v) e y x -> n_data v (at_dims R (level_in X level) t e y x (n_dims v)) = Fin q -> exists w, f_get f y x e = Ok w /\ stands s o m q w.
Proof. exact read_packed. Qed.
Print Assumptions C260_packed_partial.
Example C260_example : packed exV (Q2Qc (1 # 2)) (qz 10) (qz (-1)) /\ sound (exX exV) exV /\ available (exX exV) exR (n_dims exV) (-999) 0 /\ n_data exV (at_dims exR (level_in (exX exV) (-999)) 0 1 0 1 (n_dims exV)) = fz 7 /\
  nc_read (exX exV) exR exd (txt "v") (-999) 0 = Ok (fld 1 2 2 [fq (27 # 2); fq (27 # 2); fq (27 # 2); fq (27 # 2)]).
Proof. split; [split; [left; reflexivity|split; left; reflexivity]|]. split; [okv|]. split; [split; [intros _; cmp|]; intros k (H & N1 & N2 & N3 & N4); cbn in H, N1, N2, N3, N4; assert (k = 4) as -> by lia; split; [cmp|intros _; left; reflexivity]|]. split; [reflexivity|vm_compute; reflexivity]. Qed.

(** C261: what is written is read again.  Not so for a level other than the first, or in a variable without time *)
Theorem C261_level_refuted : exists X R d f X' R' g, can_write X R d [(txt "v", [f]); (txt "w", [f])] /\ nc_read X R d (txt "v") 1 0 = Ok g /\ nc_write X R d [(txt "v", [f]); (txt "w", [f])] = Ok (X', R') /\ nc_read X' R' d (txt "v") 1 0 = Ok g /\
  f_get f 0 0 0 = Ok (fz 1) /\ f_get g 0 0 0 = Ok (fz 7).
Proof. exact level_written. Qed.
Print Assumptions C261_level_refuted.
Theorem C261_time_refuted : exists X R d v f g X' R', proper R /\ fits X R d /\ sound X v /\ find_name (x_vars X) (txt "v") = Some v /\ nc_write X R d [(txt "v", [f; g])] = Ok (X', R') /\ nc_read X' R' d (txt "v") (-999) 0 = Ok g /\ f_get f 0 0 0 = Ok (fz 1) /\ f_get g 0 0 0 = Ok (fz 5).
Proof. exact time_lost. Qed.
Print Assumptions C261_time_refuted.
Theorem C261_round_trip_partial : forall X R d vars, can_write X R d vars -> grid_known R d -> (forall n fs, In (n, fs) vars -> faithful X d n fs) ->
  exists X' R', nc_write X R d vars = Ok (X', R') /\ forall n fs t, In (n, fs) vars -> 0 <= t < d_t d -> exists f f', znth fs t = Ok f /\ nc_read X' R' d n (-999) t = Ok f' /\ of_size d f' /\
    forall y x e, within d y x e -> exists w w', f_get f y x e = Ok w /\ f_get f' y x e = Ok w' /\ same_value w w'.
Proof. exact write_read. Qed.
Print Assumptions C261_round_trip_partial.
Example C261_example : can_write (exX exV) exR exd [(txt "v", [exF]); (txt "w", [exF])] /\ grid_known exR exd /\ (forall n fs, In (n, fs) [(txt "v", [exF]); (txt "w", [exF])] -> faithful (exX exV) exd n fs) /\
  let p := written_file (exX exV) exR exd [(txt "v", [exF]); (txt "w", [exF])] in nc_read (fst p) (snd p) exd (txt "v") (-999) 0 = Ok exF /\ nc_read (fst p) (snd p) exd (txt "w") (-999) 0 = Ok exF.
Proof. split; [exact exV_can_write|]. split; [split; discriminate|]. split; [exact ex_faithful|]. split; vm_compute; reflexivity. Qed.

(** C262: packed integers.  The stored number is cut off, not rounded *)
Theorem C262_nearest_refuted : exists X R d v s o f X' R' g w w', can_write X R d [(txt "v", [f])] /\ grid_known R d /\ find_name (x_vars X) (txt "v") = Some v /\ integers d v s o [f] /\ nc_write X R d [(txt "v", [f])] = Ok (X', R') /\ nc_read X' R' d (txt "v") (-999) 0 = Ok g /\
  within d 0 0 0 /\ f_get f 0 0 0 = Ok w /\ f_get g 0 0 0 = Ok w' /\ ~ off_by_less (Q2Qc (3 # 4)) s w w'.
Proof. exact not_nearest. Qed.
Print Assumptions C262_nearest_refuted.
Theorem C262_integers_partial : forall X R d n v fs s o, can_write X R d [(n, fs)] -> grid_known R d -> find_name (x_vars X) n = Some v -> integers d v s o fs ->
  exists X' R', nc_write X R d [(n, fs)] = Ok (X', R') /\ forall t, 0 <= t < d_t d -> exists f f', znth fs t = Ok f /\ nc_read X' R' d n (-999) t = Ok f' /\ of_size d f' /\
    forall y x e, within d y x e -> exists w w', f_get f y x e = Ok w /\ f_get f' y x e = Ok w' /\ off_by_less 1 s w w'.
Proof. exact write_integers. Qed.
Print Assumptions C262_integers_partial.
Example C262_example : can_write (exX exI) exR exd [(txt "v", [exJ])] /\ integers exd exI (Q2Qc (1 # 10)) (qz 3) [exJ].
Proof. split; [exact exI_can_write|exact exJ_integers]. Qed.

(** C263: what is left alone *)
Theorem C263_untouched : forall X R d vars, can_write X R d vars -> (forall n fs v, In (n, fs) vars -> find_name (x_vars X) n = Some v -> stores_all v) ->
  exists X' R', nc_write X R d vars = Ok (X', R') /\ (forall k, 0 <= k < zlen (x_dims X) -> k <> r_t R -> dim_size X' k = dim_size X k) /\
    (forall n, ~ In n (map fst vars) -> find_name (x_vars X') n = find_name (x_vars X) n) /\
    forall n fs v, In (n, fs) vars -> find_name (x_vars X) n = Some v -> exists v', find_name (x_vars X') n = Some v' /\ same_form v v' /\
      forall i, (forall t e y x, 0 <= t < d_t d -> within d y x e -> i <> at_dims R' (fun _ => 0) t e y x (n_dims v)) -> n_data v' i = n_data v i.
Proof. exact untouched. Qed.
Print Assumptions C263_untouched.
Example C263_example : can_write (exX exV) exR exd [(txt "v", [exF]); (txt "w", [exF])] /\ stores_all exV /\ let X' := fst (written_file (exX exV) exR exd [(txt "v", [exF]); (txt "w", [exF])]) in
  match find_name (x_vars X') (txt "v") with Some v' => n_data v' [1; 0; 0; 1; 0] = fz 7 /\ n_data v' [0; 1; 0; 0; 0] = fz (-16) | None => False end.
Proof. split; [exact exV_can_write|]. split; [intros w; reflexivity|]. vm_compute. split; reflexivity. Qed.

(** C264: all members are written.  Not so if the file has fewer, or if the variable of the file has none *)
Theorem C264_fewer_refuted : exists X R d f X' R' g, nc_write X R d [(txt "v", [f])] = Ok (X', R') /\ dim_size X (r_e R) = 1 /\ of_size d f /\ within d 0 0 1 /\ f_get f 0 0 1 = Ok (fz 2) /\ nc_read X' R' d (txt "v") (-999) 0 = Ok g /\ f_get g 0 0 1 = Ok CMV.
Proof. exact members_lost. Qed.
Print Assumptions C264_fewer_refuted.
Theorem C264_no_dimension_refuted : exists X R d f X' R' g, nc_write X R d [(txt "v", [f])] = Ok (X', R') /\ r_e R = -999 /\ r_e R' <> -999 /\ of_size d f /\ within d 0 0 1 /\ f_get f 0 0 1 = Ok (fz 2) /\ nc_read X' R' d (txt "v") (-999) 0 = Ok g /\ f_get g 0 0 1 = Ok CMV.
Proof. exact members_not_defined. Qed.
Print Assumptions C264_no_dimension_refuted.
Theorem C264_larger_partial : forall X R d n v fs, proper R -> sound X v -> find_name (x_vars X) n = Some v -> r_t R <> -999 -> In (r_e R) (n_dims v) -> d_e d < dim_size X (r_e R) -> 0 <= d_e d -> 1 <= d_t d ->
  (In (r_y R) (n_dims v) -> 1 <= dim_size X (r_y R)) -> (In (r_x R) (n_dims v) -> 1 <= dim_size X (r_x R)) -> fields_for d fs -> forall Y, nc_write X R d [(n, fs)] <> Ok Y.
Proof. exact larger. Qed.
Print Assumptions C264_larger_partial.
Example C264_example : let v := plain [0; 1; 2; 3] (fun _ => fz 7) in let X := {| x_dims := [(1, true); (3, false); (1, false); (2, false)]; x_vars := [(txt "v", v)] |} in
  sound X v /\ d_e exd < dim_size X (r_e exR) /\ fields_for exd [exF] /\ nc_write X exR exd [(txt "v", [exF])] = Abort.
Proof. split; [okv|]. split; [cmp|]. split; [exact ex_fields|vm_compute; reflexivity]. Qed.

(** C265: latitudes and longitudes.  In a variable with one dimension missing values are not noticed *)
Theorem C265_one_dimension_refuted : exists X R v g, sound X v /\ n_dims v = [r_x R] /\ latlon X R v = Ok g /\ n_fill v = Some (n_data v (map (grid_point R 0 1) (n_dims v))) /\ get2 g 0 1 = Ok (fz (-1)).
Proof. exact fill_one. Qed.
Print Assumptions C265_one_dimension_refuted.
Theorem C265_points_partial : forall X R v m, sound X v -> zlen (n_dims v) <> 1 -> r_y R <> r_x R -> In (r_y R) (n_dims v) -> In (r_x R) (n_dims v) -> (forall k, In k (n_dims v) -> 1 <= dim_size X k) -> n_fill v = Some (Fin m) ->
  exists g, latlon X R v = Ok g /\ rect (dim_size X (r_y R)) (dim_size X (r_x R)) g /\ forall i j q, 0 <= i < dim_size X (r_y R) -> 0 <= j < dim_size X (r_x R) ->
    n_data v (map (grid_point R i j) (n_dims v)) = Fin q -> exists w, get2 g i j = Ok w /\ stands 1 0 m q w.
Proof. exact latlon_points. Qed.
Print Assumptions C265_points_partial.
Theorem C265_one_dimension_partial : forall X R v k, sound X v -> n_dims v = [k] -> k = r_y R \/ k = r_x R -> r_y R <> r_x R -> (r_y R = -999 \/ 1 <= dim_size X (r_y R)) -> (r_x R = -999 \/ 1 <= dim_size X (r_x R)) ->
  exists g, latlon X R v = Ok g /\ rect (if r_y R =? -999 then 1 else dim_size X (r_y R)) (if r_x R =? -999 then 1 else dim_size X (r_x R)) g /\
    forall i j, 0 <= i < (if r_y R =? -999 then 1 else dim_size X (r_y R)) -> 0 <= j < (if r_x R =? -999 then 1 else dim_size X (r_x R)) -> get2 g i j = Ok (n_data v (map (grid_point R i j) (n_dims v))).
Proof. exact latlon_one. Qed.
Print Assumptions C265_one_dimension_partial.
Theorem C265_no_dimension : forall X R v, ~ In (r_y R) (n_dims v) -> ~ In (r_x R) (n_dims v) -> latlon X R v = Abort.
Proof. exact latlon_missing. Qed.
Print Assumptions C265_no_dimension.
Example C265_example : sound exLX exLat /\ zlen (n_dims exLat) <> 1 /\ (forall k, In k (n_dims exLat) -> 1 <= dim_size exLX k) /\ latlon exLX exR exLat = Ok [[fz 50; CMV]; [fz 60; fz 61]].
Proof. destruct exLat_many as (A & B & C). split; [exact A|]. split; [exact B|]. split; [exact C|]. vm_compute. reflexivity. Qed.
