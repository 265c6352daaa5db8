(** Property theorems C50 to C52 and C71 to C73. *)
From Verif Require Import QcTac Base M_Stat M_Geo M_Near M_Bilin M_Down S_Stat S_Neigh S_Geo S_Near S_Down P_Geo P_Near P_Ens P_Grad P_GradAll P_CGrad.

Ltac rect_now := split; [reflexivity | cbn; intuition (subst; reflexivity)].
Ltac grid_now := split; [lia|]; split; [lia|]; split; [rect_now|]; split; [rect_now|];
  exists [], []; split; [auto|]; split; [auto|]; cbn; reflexivity.
Notation la12 := [[qz 0; qz 0]].
Notation lo12 := [[qz 0; qz 4]].
Notation la13 := [[qz 0; qz 0; qz 1]].
Notation lo13 := [[qz 1; qz 3; qz 9]].

(** C50: probabilities *)
Theorem C50_downscale_probability : forall G t Y X lats lons ig t' Y' X' lats' lons' og, geo_ok G -> is_grid G t Y X lats lons ig -> is_grid G t' Y' X' lats' lons' og -> valid_all2 t lats' ->
  exists cell : Z -> Z -> Z * Z,
  (forall i j la lo, get2 lats' i j = Ok la -> get2 lons' i j = Ok lo -> closest (grid_at' G t lats lons) (position G t la lo) true (cell i j)) /\
  forall N iv thr op, cube N Y X iv -> rect Y' X' thr ->
  exists out, downscale_probability G ig og iv thr op = Ok out /\ rect Y' X' out /\
  forall i j, 0 <= i < Y' -> 0 <= j < X' -> exists e th r, get2 iv (fst (cell i j)) (snd (cell i j)) = Ok e /\ get2 thr i j = Ok th /\
    get2 out i j = Ok r /\ prob_of op e th r.
Proof. exact c50_all. Qed.
Print Assumptions C50_downscale_probability.
Theorem C50_probability_laws : (forall op e t r, prob_of op e t r -> r = MV /\ finites e = [] \/ exists p, r = Fin p /\ (0 <= p <= 1)%Qc /\ finites e <> []) /\
  (forall e t r r', t <> NaN -> (prob_of Lt e t r /\ prob_of Geq e t r') \/ (prob_of Leq e t r /\ prob_of Gt e t r') ->
     r = MV /\ r' = MV \/ exists p p', r = Fin p /\ r' = Fin p' /\ (p + p' = 1)%Qc) /\
  (forall op e t t' r r', (t <= t')%Qc -> op = Lt \/ op = Leq -> prob_of op e (Fin t) r -> prob_of op e (Fin t') r' ->
     r = MV /\ r' = MV \/ exists p p', r = Fin p /\ r' = Fin p' /\ (p <= p')%Qc) /\
  (forall op e t t' r r', (t <= t')%Qc -> op = Gt \/ op = Geq -> prob_of op e (Fin t) r -> prob_of op e (Fin t') r' ->
     r = MV /\ r' = MV \/ exists p p', r = Fin p /\ r' = Fin p' /\ (p' <= p)%Qc).
Proof. exact c50_laws. Qed.
Print Assumptions C50_probability_laws.
Example C50_example : exists g h, is_grid G0 Cartesian 1 2 la12 lo12 g /\ is_grid G0 Cartesian 1 3 la13 lo13 h /\
  cube 3 1 2 [[[fz 1; NaN; fz 4]; [fz 5; fz 2; fz 7]]] /\
  downscale_probability G0 g h [[[fz 1; NaN; fz 4]; [fz 5; fz 2; fz 7]]] [[fz 4; fz 4; fz 1]] Geq = Ok [[Fin (Q2Qc (1#2)); Fin (Q2Qc (2#3)); fz 1]] /\
  downscale_probability G0 g h [[[fz 1; NaN; fz 4]; [fz 5; fz 2; fz 7]]] [[fz 4; fz 4; fz 1]] Lt = Ok [[Fin (Q2Qc (1#2)); Fin (Q2Qc (1#3)); fz 0]].
Proof.
  eexists. eexists. split; [grid_now|]. split; [grid_now|]. split.
  - split; [rect_now|]. cbn; intuition (subst; cbn in *; intuition (subst; reflexivity)).
  - split; vcalc.
Qed.

(** C51: masked consensus and quantile *)
Theorem C51_mask_threshold_downscale : forall E G t Y X lats lons ig t' Y' X' lats' lons' og, geo_ok G -> is_grid G t Y X lats lons ig -> is_grid G t' Y' X' lats' lons' og -> valid_all2 t lats' ->
  exists cell : Z -> Z -> Z * Z,
  (forall i j la lo, get2 lats' i j = Ok la -> get2 lons' i j = Ok lo -> closest (grid_at' G t lats lons) (position G t la lo) true (cell i j)) /\
  forall N ivt ivf tv thr op, 0 <= N -> cube N Y X ivt -> cube N Y X ivf -> cube N Y X tv -> rect Y' X' thr ->
  let result P out := rect Y' X' out /\ forall i j, 0 <= i < Y' -> 0 <= j < X' -> exists et ef ev th w r,
    get2 ivt (fst (cell i j)) (snd (cell i j)) = Ok et /\ get2 ivf (fst (cell i j)) (snd (cell i j)) = Ok ef /\ get2 tv (fst (cell i j)) (snd (cell i j)) = Ok ev /\
    get2 thr i j = Ok th /\ masked_ens op th et ef ev w /\ get2 out i j = Ok r /\ P w r in
  (forall st, stat_listed st -> exists out, mask_threshold_downscale_consensus E G ig og ivt ivf tv thr op st = Ok out /\
     result (fun w r => stat_of E st (finites w) r) out) /\
  (forall q, (0 <= q <= 1)%Qc -> exists out, mask_threshold_downscale_quantile E G ig og ivt ivf tv thr op (Fin q) = Ok out /\ result (fun w => quantile_of q (finites w)) out).
Proof. exact c51_all. Qed.
Print Assumptions C51_mask_threshold_downscale.
Example C51_example : exists g h, is_grid G0 Cartesian 1 2 la12 lo12 g /\ is_grid G0 Cartesian 1 3 la13 lo13 h /\
  mask_threshold_downscale_consensus E0 G0 g h [[[fz 1; fz 2; fz 4]; [fz 5; fz 2; fz 7]]] [[[fz 0; fz 0; fz 0]; [fz 1; fz 1; NaN]]] [[[fz 1; NaN; fz 4]; [fz 5; fz 2; fz 1]]]
    [[fz 2; fz 2; fz 3]] Gt Mean = Ok [[fz 2; fz 3; fz 3]] /\
  mask_threshold_downscale_quantile E0 G0 g h [[[fz 1; fz 2; fz 4]; [fz 5; fz 2; fz 7]]] [[[fz 0; fz 0; fz 0]; [fz 1; fz 1; NaN]]] [[[fz 1; NaN; fz 4]; [fz 5; fz 2; fz 1]]]
    [[fz 2; fz 2; fz 3]] Gt (fz 1) = Ok [[fz 4; fz 5; fz 5]].
Proof. eexists. eexists. split; [grid_now|]. split; [grid_now|]. split; vcalc. Qed.

(** C52: gradients *)
Theorem C52_simple_gradient : forall E G t t' Y X lats lons ig d, is_grid G t Y X lats lons ig ->
  (forall Y' X' lats' lons' og, is_grid G t' Y' X' lats' lons' og ->
    let down f := downscaling_gg2 E G ig og f d in
    (forall v dv de g, rect Y X v -> down v = Ok dv -> down (g_elevs ig) = Ok de ->
      exists out, simple_gradient_gg2 E G ig og v g d = Ok out /\ simple_cells Y' X' (g_elevs og) de dv g out) /\
    (forall v dv de g, v <> [] -> Forall (rect Y X) v -> Forall2 (fun f o => down f = Ok o) v dv -> down (g_elevs ig) = Ok de ->
      exists out, simple_gradient_gg3 E G ig og v g d = Ok out /\ Forall2 (fun dvt ot => simple_cells Y' X' (g_elevs og) de dvt g ot) dv out)) /\
  (forall las' los' op, is_points G t' las' los' op ->
    let down f := downscaling_gp2 E G ig op f d in
    (forall v dv de g, rect Y X v -> down v = Ok dv -> down (g_elevs ig) = Ok de ->
      exists out, simple_gradient_gp2 E G ig op v g d = Ok out /\ simple_points (zlen las') (s_elevs op) de dv g out) /\
    (forall v dv de g, v <> [] -> Forall (rect Y X) v -> Forall2 (fun f o => down f = Ok o) v dv -> down (g_elevs ig) = Ok de ->
      exists out, simple_gradient_gp3 E G ig op v g d = Ok out /\ Forall2 (fun dvt ot => simple_points (zlen las') (s_elevs op) de dvt g ot) dv out)).
Proof. exact c52_simple. Qed.
Print Assumptions C52_simple_gradient.
Theorem C52_full_gradient : forall E G t t' Y X lats lons ig d, is_grid G t Y X lats lons ig ->
  (forall Y' X' lats' lons' og, is_grid G t' Y' X' lats' lons' og ->
    let down f := downscaling_gg2 E G ig og f d in
    (forall v eg lg dv pe pl, rect Y X v -> (eg = [] \/ rect Y X eg) -> (lg = [] \/ rect Y X lg) -> down v = Ok dv ->
      plain down eg (g_elevs ig) pe -> plain down lg (g_lafs ig) pl ->
      exists out, full_gradient_gg2 E G ig og v eg lg d = Ok out /\ full_cells Y' X' (g_elevs og) (g_lafs og) pe pl dv out) /\
    (forall v eg lg dv pe pl, v <> [] -> Forall (rect Y X) v -> Forall (rect Y X) eg -> Forall (rect Y X) lg -> Forall2 (fun f o => down f = Ok o) v dv ->
      plain3 down eg (g_elevs ig) (zlen v) pe -> plain3 down lg (g_lafs ig) (zlen v) pl ->
      exists out, full_gradient_gg3 E G ig og v eg lg d = Ok out /\ each_time (full_cells Y' X' (g_elevs og) (g_lafs og)) pe pl dv out)) /\
  (forall las' los' op, is_points G t' las' los' op ->
    let down f := downscaling_gp2 E G ig op f d in
    (forall v eg lg dv pe pl, rect Y X v -> (eg = [] \/ rect Y X eg) -> (lg = [] \/ rect Y X lg) -> down v = Ok dv ->
      plain down eg (g_elevs ig) pe -> plain down lg (g_lafs ig) pl ->
      exists out, full_gradient_gp2 E G ig op v eg lg d = Ok out /\ full_points (zlen las') (s_elevs op) (s_lafs op) pe pl dv out) /\
    (forall v eg lg dv pe pl, v <> [] -> Forall (rect Y X) v -> Forall (rect Y X) eg -> Forall (rect Y X) lg -> Forall2 (fun f o => down f = Ok o) v dv ->
      plain3 down eg (g_elevs ig) (zlen v) pe -> plain3 down lg (g_lafs ig) (zlen v) pl ->
      exists out, full_gradient_gp3 E G ig op v eg lg d = Ok out /\ each_time (full_points (zlen las') (s_elevs op) (s_lafs op)) pe pl dv out)).
Proof. exact c52_full. Qed.
Print Assumptions C52_full_gradient.
Theorem C52_no_correction_partial : forall v ge oe ie gl ol il r, (no_effect ge oe ie -> no_effect gl ol il -> full_value (Fin v) ge oe ie gl ol il r -> r = Fin v) /\
  (forall a k, simple_value (Fin v) (Fin a) (Fin a) (Fin k) r -> r = Fin v) /\
  (forall a b, simple_value (Fin v) (Fin a) (Fin b) (Fin 0%Qc) r -> r = Fin v).
Proof. exact c52_no_correction. Qed.
Print Assumptions C52_no_correction_partial.
Theorem C52_missing_elevation_refuted : exists E G ig og v dv out, geo_ok G /\
  is_grid G Cartesian 1 1 [[0]]%Qc [[0]]%Qc ig /\ is_grid G Cartesian 1 1 [[0]]%Qc [[0]]%Qc og /\ rect 1 1 v /\
  downscaling_gg2 E G ig og v Nearest = Ok dv /\ get2 dv 0 0 = Ok (fz 5) /\
  simple_gradient_gg2 E G ig og v (fz 0) Nearest = Ok out /\ get2 out 0 0 = Ok NaN.
Proof. exact c52_missing_elevation_refuted. Qed.
Print Assumptions C52_missing_elevation_refuted.
Ltac egrid_now := split; [lia|]; split; [lia|]; split; [rect_now|]; split; [rect_now|];
  eexists _, _; split; [right; rect_now|]; split; [right; rect_now|]; cbn; reflexivity.
Example C52_example : exists g h, mk_grid G0 (map (map Fin) la12) (map (map Fin) lo12) [[fz 100; fz 200]] [[fz 1; fz 0]] Cartesian = Ok g /\
  mk_grid G0 (map (map Fin) la13) (map (map Fin) lo13) [[fz 150; fz 150; NaN]] [[Fin (Q2Qc (1#2)); fz 0; fz 1]] Cartesian = Ok h /\
  is_grid G0 Cartesian 1 2 la12 lo12 g /\ is_grid G0 Cartesian 1 3 la13 lo13 h /\
  downscaling_gg2 E0 G0 g h [[fz 10; fz 20]] Nearest = Ok [[fz 10; fz 20; fz 20]] /\
  simple_gradient_gg2 E0 G0 g h [[fz 10; fz 20]] (Fin (Q2Qc (1#10))) Nearest = Ok [[fz 15; fz 15; NaN]] /\
  full_gradient_gg2 E0 G0 g h [[fz 10; fz 20]] [[Fin (Q2Qc (1#10)); Fin (Q2Qc (1#5))]] [[fz 2; fz 4]] Nearest = Ok [[fz 14; fz 10; fz 24]].
Proof.
  eexists. eexists. split; [cbn; reflexivity|]. split; [cbn; reflexivity|].
  split. { split; [lia|]; split; [lia|]; split; [rect_now|]; split; [rect_now|]. exists [[fz 100; fz 200]], [[fz 1; fz 0]]. split; [right; rect_now|]. split; [right; rect_now|]. reflexivity. }
  split. { split; [lia|]; split; [lia|]; split; [rect_now|]; split; [rect_now|]. exists [[fz 150; fz 150; NaN]], [[Fin (Q2Qc (1#2)); fz 0; fz 1]]. split; [right; rect_now|]. split; [right; rect_now|]. reflexivity. }
  split; [vcalc|]. split; vcalc.
Qed.

(** C71: the debugging variant *)
Theorem C71_full_gradient_debug_partial : forall E G t t' Y X Y' X' lats lons lats' lons' ig og d, is_grid G t Y X lats lons ig -> is_grid G t' Y' X' lats' lons' og ->
  let down f := downscaling_gg2 E G ig og f d in
  forall v eg lg dv deg dlg de dl, rect Y X v -> rect Y X eg -> rect Y X lg ->
  down v = Ok dv -> down eg = Ok deg -> down lg = Ok dlg -> down (g_elevs ig) = Ok de -> down (g_lafs ig) = Ok dl ->
  exists out, full_gradient_debug E G ig og v eg lg d = Ok out /\ debug_cells Y' X' (g_elevs og) (g_lafs og) de dl deg dlg dv out.
Proof. exact c71_debug. Qed.
Print Assumptions C71_full_gradient_debug_partial.
Theorem C71_debug_without_land_gradient : forall E G t t' Y X Y' X' lats lons lats' lons' ig og d, is_grid G t Y X lats lons ig -> is_grid G t' Y' X' lats' lons' og ->
  let down f := downscaling_gg2 E G ig og f d in
  forall v eg dv deg de, rect Y X v -> down v = Ok dv -> rect Y X eg -> down eg = Ok deg -> down (g_elevs ig) = Ok de ->
  full_gradient_debug E G ig og v eg [] d = UB /\ (exists out, full_gradient_gg2 E G ig og v eg [] d = Ok out).
Proof. exact c71_empty_refuted. Qed.
Print Assumptions C71_debug_without_land_gradient.
Theorem C71_full_gradient_debug_refuted : exists E G ig og v eg, geo_ok G /\ is_grid G Cartesian 1 1 [[0]]%Qc [[0]]%Qc ig /\ is_grid G Cartesian 1 1 [[0]]%Qc [[0]]%Qc og /\
  rect 1 1 v /\ rect 1 1 eg /\ full_gradient_debug E G ig og v eg [] Nearest = UB.
Proof. exact c71_refuted. Qed.
Print Assumptions C71_full_gradient_debug_refuted.
Example C71_example : exists g h, mk_grid G0 (map (map Fin) la12) (map (map Fin) lo12) [[fz 100; fz 200]] [[fz 1; fz 0]] Cartesian = Ok g /\
  mk_grid G0 [[fz 0]] [[fz 1]] [[fz 150]] [[Fin (Q2Qc (1#2))]] Cartesian = Ok h /\
  full_gradient_debug E0 G0 g h [[fz 10; fz 20]] [[Fin (Q2Qc (1#10)); Fin (Q2Qc (1#5))]] [[fz 2; fz 4]] Nearest =
    Ok [[[fz 14; Fin (Q2Qc (-1#2)); fz 50; fz (-1); fz 5; Fin (Q2Qc (1#2)); fz 1; fz 9; fz 15]]] /\
  full_gradient_debug E0 G0 g h [[fz 10; fz 20]] [[Fin (Q2Qc (1#10)); Fin (Q2Qc (1#5))]] [] Nearest = UB.
Proof. eexists. eexists. split; [cbn; reflexivity|]. split; [cbn; reflexivity|]. split; [vcalc|vm_compute; reflexivity]. Qed.

(** C72: gradients from the extremes *)
Theorem C72_minmax_gradient_partial : forall E nY nX base values h num_min min_range default, gradient_args nY nX base values h num_min min_range ->
  exists out, calc_gradient E base values MinMax h num_min min_range default = Ok out /\
    filtered nY nX (fun y x r => minmax_value (pairs_around base values h y x) num_min min_range default r) out.
Proof. exact c72_minmax. Qed.
Print Assumptions C72_minmax_gradient_partial.
Theorem C72_calc_gradient_rejects : forall E base values gt h num_min min_range default, h <= 0 \/ num_min < 0 \/ base = [] \/ zlen base <> zlen values \/ (exists m, min_range = Fin m /\ (m < 0)%Qc) ->
  calc_gradient E base values gt h num_min min_range default = Throw InvalidArgument.
Proof. exact c72_rejects. Qed.
Print Assumptions C72_calc_gradient_rejects.
Theorem C72_flat_terrain_refuted : forall E, exists nY nX base values h num_min default,
  gradient_args nY nX base values h num_min MV /\ num_min <= zlen (pairs_around base values h 0 0) /\
  (forall p q, In p (pairs_around base values h 0 0) -> In q (pairs_around base values h 0 0) -> fst p = fst q) /\
  exists out r, calc_gradient E base values MinMax h num_min MV (Fin default) = Ok out /\ get2 out 0 0 = Ok r /\ missing r.
Proof. exact c72_flat_refuted. Qed.
Print Assumptions C72_flat_terrain_refuted.
Example C72_example : gradient_args 1 4 [[fz 1; fz 5; NaN; fz 3]] [[fz 2; fz 10; fz 1; fz 0]] 1 2 (fz 0) /\
  calc_gradient E0 [[fz 1; fz 5; NaN; fz 3]] [[fz 2; fz 10; fz 1; fz 0]] MinMax 1 2 (fz 0) (fz (-7)) = Ok [[fz 2; fz 2; fz 5; fz (-7)]].
Proof.
  split; [|vcalc]. split; [rect_now|]. split; [rect_now|]. repeat (split; [lia|]). intros m K. injection K as <-. vm_compute; discriminate.
Qed.

(** C73: regression gradients *)
Theorem C73_regression_gradient : forall E nY nX base values h num_min min_range default, gradient_args nY nX base values h num_min min_range ->
  exists out, calc_gradient E base values LinearRegression h num_min min_range default = Ok out /\
    filtered nY nX (fun y x r => regression_value E (pairs_around base values h y x) num_min min_range default r) out.
Proof. exact c73_regression. Qed.
Print Assumptions C73_regression_gradient.
Theorem C73_regression_recovers_line : forall E nY nX base values h num_min min_range default a b out y x r, gradient_args nY nX base values h num_min min_range ->
  calc_gradient E base values LinearRegression h num_min min_range default = Ok out ->
  0 <= y < nY -> 0 <= x < nX -> (forall p, In p (pairs_around base values h y x) -> snd p = a + b * fst p)%Qc -> get2 out y x = Ok r -> r = Fin b \/ r = default.
Proof. exact c73_linear. Qed.
Print Assumptions C73_regression_recovers_line.
Example C73_example : gradient_args 1 4 [[fz 1; fz 5; NaN; fz 3]] [[fz 2; fz 10; fz 1; fz 0]] 4 2 MV /\
  calc_gradient E0 [[fz 1; fz 5; NaN; fz 3]] [[fz 2; fz 10; fz 1; fz 0]] LinearRegression 4 2 MV (fz (-7)) = Ok [[fz 2; fz 2; fz 2; fz 2]] /\
  calc_gradient E0 [[fz 1; fz 5; NaN; fz 3]] [[fz 2; fz 10; fz 1; fz 0]] LinearRegression 1 2 MV (fz (-7)) = Ok [[fz 2; fz 2; fz 5; fz (-7)]].
Proof.
  split; [|split; vcalc]. split; [rect_now|]. split; [rect_now|]. repeat (split; [lia|]). discriminate.
Qed.
