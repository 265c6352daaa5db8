(** Property theorems C285 and C286: arguments whose sizes do not fit together are rejected. *)
From Verif Require Import Base M_Stat M_Curve M_Geo M_Near M_Bilin M_Down M_Grd S_Stat S_Neigh S_Geo S_Near S_Sizes P_Sizes.
Local Open Scope Z_scope.

(** C285: false if there is no field, or if only the first row has the right size *)
Theorem C285_sizes_refuted : exists ig (v w : vec2), is_grid G0 Cartesian 2 1 [[qz 0]; [qz 1]] [[qz 0]; [qz 0]] ig /\ ~ rect 2 1 v /\ ~ rect 2 1 w /\
  nearest_gg2 G0 ig ig v = UB /\ nearest_gg2 G0 ig ig w = UB /\ zlen v = 0 /\ zlen w = 2.
Proof. exact c285_refuted. Qed.
Print Assumptions C285_sizes_refuted.
Theorem C285_grid_fields_partial : forall E G t Y X lats lons ig, is_grid G t Y X lats lons ig ->
  (forall (v : vec2), other_size Y X v ->
     (forall og, nearest_gg2 G ig og v = Throw InvalidArgument /\ bilinear_gg2 E G ig og v = Throw InvalidArgument) /\
     (forall op, nearest_gp2 G ig op v = Throw InvalidArgument /\ bilinear_gp2 E G ig op v = Throw InvalidArgument) /\
     (forall og d, downscaling_gg2 E G ig og v d = Throw InvalidArgument) /\ (forall op d, downscaling_gp2 E G ig op v d = Throw InvalidArgument) /\
     (forall og a d, simple_gradient_gg2 E G ig og v a d = Throw InvalidArgument) /\ (forall op a d, simple_gradient_gp2 E G ig op v a d = Throw InvalidArgument) /\
     (forall op eg lg d, full_gradient_gp2 E G ig op v eg lg d = Throw InvalidArgument)) /\
  (forall (v : vec3), other_size3 Y X v ->
     (forall og, nearest_gg3 G ig og v = Throw InvalidArgument /\ bilinear_gg3 E G ig og v = Throw InvalidArgument) /\
     (forall op, nearest_gp3 G ig op v = Throw InvalidArgument /\ bilinear_gp3 E G ig op v = Throw InvalidArgument) /\
     (forall og d, downscaling_gg3 E G ig og v d = Throw InvalidArgument) /\ (forall op d, downscaling_gp3 E G ig op v d = Throw InvalidArgument) /\
     (forall og a d, simple_gradient_gg3 E G ig og v a d = Throw InvalidArgument) /\ (forall op a d, simple_gradient_gp3 E G ig op v a d = Throw InvalidArgument) /\
     (forall op eg lg d, full_gradient_gp3 E G ig op v eg lg d = Throw InvalidArgument)).
Proof. exact c285_sizes. Qed.
Print Assumptions C285_grid_fields_partial.
Theorem C285_point_values_partial : forall G t las los ip, is_points G t las los ip ->
  (forall (v : vec), zlen v <> zlen las -> (forall og, nearest_pg1 G ip og v = Throw InvalidArgument) /\ (forall op, nearest_pp1 G ip op v = Throw InvalidArgument)) /\
  (forall (v : vec2), other_length (zlen las) v -> (forall og, nearest_pg2 G ip og v = Throw InvalidArgument) /\ (forall op, nearest_pp2 G ip op v = Throw InvalidArgument)).
Proof. exact c285_points. Qed.
Print Assumptions C285_point_values_partial.
Theorem C285_gradients_partial : forall E G t Y X lats lons ig to Yo Xo lato lono og v eg lg d, is_grid G t Y X lats lons ig -> is_grid G to Yo Xo lato lono og ->
  other_size Y X v \/ rect Y X v /\ (other_size Y X lg \/ (lg = [] \/ rect Y X lg) /\ other_size Y X eg) ->
  full_gradient_gg2 E G ig og v eg lg d = Throw InvalidArgument.
Proof. exact c285_gradients. Qed.
Print Assumptions C285_gradients_partial.
Theorem C285_fill_and_doping_partial : forall G t Y X lats lons ig tp las los P, is_grid G t Y X lats lons ig -> is_points G tp las los P ->
  (forall v, other_size Y X v -> (forall radii value outside, fill G ig v P radii value outside = Throw InvalidArgument) /\
     (forall obs hw m, doping_square G ig v P obs hw m = Throw InvalidArgument) /\ (forall obs radii m, doping_circle G ig v P obs radii m = Throw InvalidArgument)) /\
  (forall v obs m, rect Y X v -> (forall hw, zlen obs <> zlen las \/ zlen hw <> zlen las -> doping_square G ig v P obs hw m = Throw InvalidArgument) /\
     (forall radii, zlen obs <> zlen las \/ zlen radii <> zlen las -> doping_circle G ig v P obs radii m = Throw InvalidArgument)).
Proof. exact c285_written. Qed.
Print Assumptions C285_fill_and_doping_partial.
Example C285_example : exists g P, is_grid G0 Cartesian 2 1 [[qz 0]; [qz 1]] [[qz 0]; [qz 0]] g /\ is_points G0 Cartesian [qz 0; qz 1] [qz 0; qz 0] P /\
  other_size 2 1 [[fz 1; fz 2]] /\ other_size 2 1 [[fz 1; fz 2]; [fz 3; fz 4]] /\ other_size3 2 1 [[[fz 1; fz 2]]; []] /\ other_length 2 [[fz 1]; [fz 2; fz 3]] /\
  nearest_gg2 G0 g g [[fz 1]; [fz 2]] = Ok [[fz 1]; [fz 2]] /\ nearest_gg2 G0 g g [[fz 1; fz 2]; [fz 3; fz 4]] = Throw InvalidArgument /\
  nearest_pp2 G0 P P [[fz 1]; [fz 2; fz 3]] = Throw InvalidArgument /\ doping_square G0 g [[fz 1]; [fz 2]] P [fz 1] [0; 0] NaN = Throw InvalidArgument.
Proof.
  eexists. eexists. split; [grid_n|]. split; [exists [], []; cbn; reflexivity|].
  split; [exists [fz 1; fz 2]; split; [reflexivity|left; discriminate]|]. split; [exists [fz 1; fz 2]; split; [reflexivity|right; discriminate]|].
  split; [exists [[fz 1; fz 2]]; split; [reflexivity|]; exists [fz 1; fz 2]; split; [reflexivity|left; discriminate]|]. split; [exists [fz 1]; split; [reflexivity|discriminate]|].
  repeat split; vm_compute; reflexivity.
Qed.

(** C286: the other arguments *)
Theorem C286_unknown_downscaler : forall E G t Y X lats lons ig, is_grid G t Y X lats lons ig ->
  (forall v : vec2, rect Y X v -> (forall og, downscaling_gg2 E G ig og v OtherDownscaler = Throw InvalidArgument) /\ (forall op, downscaling_gp2 E G ig op v OtherDownscaler = Throw InvalidArgument)) /\
  (forall v : vec3, Forall (rect Y X) v -> (forall og, downscaling_gg3 E G ig og v OtherDownscaler = Throw InvalidArgument) /\ (forall op, downscaling_gp3 E G ig op v OtherDownscaler = Throw InvalidArgument)).
Proof. exact c285_downscaler. Qed.
Print Assumptions C286_unknown_downscaler.
Theorem C286_calc_gradient : forall E base values gt h num_min min_range default, sizes_differ base values -> calc_gradient E base values gt h num_min min_range default = Throw InvalidArgument.
Proof. exact c286_gradient. Qed.
Print Assumptions C286_calc_gradient.
Theorem C286_curves : forall pb pa,
  (forall ref fc, zlen ref <> zlen fc \/ (ref = [] /\ fc = []) -> (forall l, apply_curve_vec l ref fc pb pa = Throw InvalidArgument) /\ (forall l, apply_curve_vec2 l ref fc pb pa = Throw InvalidArgument)) /\
  (forall l ref fc, sizes_differ ref fc \/ (exists y u v, znth ref y = Ok u /\ znth fc y = Ok v /\ sizes_differ u v) -> apply_curve_vec3 l ref fc pb pa = Throw InvalidArgument) /\
  (forall l ref fc, zlen l <> zlen ref \/ (exists u v, znth l 0 = Ok u /\ znth ref 0 = Ok v /\ zlen u <> zlen v) -> apply_curve_vec3 l ref fc pb pa = Throw InvalidArgument).
Proof. exact c286_curves. Qed.
Print Assumptions C286_curves.
Example C286_example : sizes_differ [[fz 1; fz 2]; [fz 3]] [[fz 1; fz 2]; [fz 3; fz 4]] /\
  calc_gradient E0 [[fz 1; fz 2]; [fz 3]] [[fz 1; fz 2]; [fz 3; fz 4]] MinMax 1 0 NaN (fz 0) = Throw InvalidArgument /\
  apply_curve_vec [fz 1] [fz 0; fz 2] [fz 0] OneToOne OneToOne = Throw InvalidArgument.
Proof. split; [right; exists 1, [fz 3], [fz 3; fz 4]; repeat split; discriminate|split; reflexivity]. Qed.
