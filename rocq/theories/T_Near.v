(** Property theorems C42, C44-C49 and C69. *)
From Verif Require Import Base M_Geo M_Near M_Grd S_Stat S_Neigh S_Geo S_Near P_Geo P_Near P_Grd P_Assign P_Write P_Missing P_Bound P_Count.

Ltac rect_now := split; [reflexivity | cbn; intuition (subst; reflexivity)].
Ltac grid_now := split; [lia|]; split; [lia|]; split; [rect_now|]; split; [rect_now|];
  exists [], []; split; [auto|]; split; [auto|]; cbn; reflexivity.
Ltac points_now := exists [], []; cbn; reflexivity.
Notation lats23 := [[qz 0; qz 0; qz 0]; [qz 1; qz 1; qz 1]].
Notation lons23 := [[qz 0; qz 1; qz 2]; [qz 0; qz 1; qz 2]].

(** C42 *)
Theorem C42_nearest_from_grid : forall G t Y X lats lons ig, geo_ok G -> is_grid G t Y X lats lons ig ->
  exists cell : Qc -> Qc -> Z * Z,
  (forall la lo, valid_loc t la -> closest (grid_at' G t lats lons) (position G t la lo) true (cell la lo)) /\
  (forall la lo c, valid_loc t la -> grid_at' G t lats lons c (position G t la lo) ->
     (forall c' q, grid_at' G t lats lons c' q -> sqdist (position G t la lo) q = 0%Qc -> c' = c) -> cell la lo = c) /\
  (forall t' Y' X' lats' lons' og, is_grid G t' Y' X' lats' lons' og -> valid_all2 t lats' ->
     (forall v, rect Y X v -> exists out, nearest_gg2 G ig og v = Ok out /\ rect Y' X' out /\
        on_grid lats' lons' (fun la lo => val_at v (cell la lo)) out) /\
     (forall v, Forall (rect Y X) v -> exists out, nearest_gg3 G ig og v = Ok out /\
        Forall2 (fun vt ot => rect Y' X' ot /\ on_grid lats' lons' (fun la lo => val_at vt (cell la lo)) ot) v out)) /\
  (forall t' las' los' op, is_points G t' las' los' op -> valid_all t las' ->
     (forall v, rect Y X v -> exists out, nearest_gp2 G ig op v = Ok out /\
        on_points las' los' (fun la lo => val_at v (cell la lo)) out) /\
     (forall v, Forall (rect Y X) v -> exists out, nearest_gp3 G ig op v = Ok out /\
        Forall2 (fun vt ot => on_points las' los' (fun la lo => val_at vt (cell la lo)) ot) v out)).
Proof. exact c42_grid. Qed.
Print Assumptions C42_nearest_from_grid.
Theorem C42_nearest_from_points : forall G t las los ip, geo_ok G -> is_points G t las los ip -> las <> [] ->
  exists idx : Qc -> Qc -> Z,
  (forall la lo, valid_loc t la -> closest (point_at G t las los) (position G t la lo) true (idx la lo)) /\
  (forall la lo i, valid_loc t la -> point_at G t las los i (position G t la lo) ->
     (forall j q, point_at G t las los j q -> sqdist (position G t la lo) q = 0%Qc -> j = i) -> idx la lo = i) /\
  (forall t' Y' X' lats' lons' og, is_grid G t' Y' X' lats' lons' og -> valid_all2 t lats' ->
     (forall v, zlen v = zlen las -> exists out, nearest_pg1 G ip og v = Ok out /\ rect Y' X' out /\
        on_grid lats' lons' (fun la lo => znth v (idx la lo)) out) /\
     (forall v, Forall (fun r => zlen r = zlen las) v -> exists out, nearest_pg2 G ip og v = Ok out /\
        Forall2 (fun vt ot => rect Y' X' ot /\ on_grid lats' lons' (fun la lo => znth vt (idx la lo)) ot) v out)) /\
  (forall t' las' los' op, is_points G t' las' los' op -> valid_all t las' ->
     (forall v, zlen v = zlen las -> exists out, nearest_pp1 G ip op v = Ok out /\
        on_points las' los' (fun la lo => znth v (idx la lo)) out) /\
     (forall v, Forall (fun r => zlen r = zlen las) v -> exists out, nearest_pp2 G ip op v = Ok out /\
        Forall2 (fun vt ot => on_points las' los' (fun la lo => znth vt (idx la lo)) ot) v out)).
Proof. exact c42_points. Qed.
Print Assumptions C42_nearest_from_points.
Theorem C42_nearest_grid_and_points_agree : forall G t Y X lats lons ig P la lo, geo_ok G -> is_grid G t Y X lats lons ig -> to_points ig = Ok P -> valid_loc t la ->
  exists k c, points_nearest G P (Fin la) (Fin lo) true = Ok k /\ grid_nearest G ig (Fin la) (Fin lo) true = Ok (Some c) /\
     0 <= snd c < X /\ k = fst c * X + snd c.
Proof. exact c42_same. Qed.
Print Assumptions C42_nearest_grid_and_points_agree.
Example C42_example : exists g P, is_grid G0 Cartesian 2 3 lats23 lons23 g /\ is_points G0 Cartesian [qz 1; qz 0] [qz 2; qz 1] P /\
  nearest_gp2 G0 g P [[fz 1; fz 2; fz 3]; [fz 4; fz 5; fz 6]] = Ok [fz 6; fz 2] /\
  nearest_gg2 G0 g g [[fz 1; fz 2; fz 3]; [fz 4; NaN; fz 6]] = Ok [[fz 1; fz 2; fz 3]; [fz 4; NaN; fz 6]] /\
  nearest_pg1 G0 P g [fz 7; fz 8] = Ok [[fz 8; fz 8; fz 7]; [fz 8; fz 7; fz 7]].
Proof. eexists. eexists. split; [grid_now|]. split; [points_now|]. repeat split; vm_compute; reflexivity. Qed.

(** C44: fails for a point exactly at the radius along an axis *)
Theorem C44_gridding_grid_partial : forall E G t las los ip t' Y X lats lons og values r min_num st, geo_ok G -> is_points G t las los ip ->
  is_grid G t' Y X lats lons og -> valid_all2 t lats -> zlen values = zlen las -> (0 <= r)%Qc -> 0 <= min_num -> stat_listed st ->
  exists out, gridding_g E G og ip values (Fin r) min_num st = Ok out /\ rect Y X out /\
  forall y x la lo, get2 lats y x = Ok la -> get2 lons y x = Ok lo ->
    exists v, get2 out y x = Ok v /\ gridding_value E G t las los values r min_num st la lo v.
Proof. exact gridding_g_ok. Qed.
Print Assumptions C44_gridding_grid_partial.
Theorem C44_gridding_points_partial : forall E G t las los ip t' las' los' op values r min_num st, geo_ok G -> is_points G t las los ip ->
  is_points G t' las' los' op -> valid_all t las' -> zlen values = zlen las -> (0 <= r)%Qc -> 0 <= min_num -> stat_listed st ->
  exists out, gridding_p E G op ip values (Fin r) min_num st = Ok out /\ zlen out = zlen las' /\
  forall n la lo, znth las' n = Ok la -> znth los' n = Ok lo ->
    exists v, znth out n = Ok v /\ gridding_value E G t las los values r min_num st la lo v.
Proof. exact gridding_p_ok. Qed.
Print Assumptions C44_gridding_points_partial.
Theorem C44_gridding_invalid_partial : forall E G t las los ip og op values r min_num st, is_points G t las los ip ->
  zlen values <> zlen las \/ r = NaN \/ r = PInf \/ r = NInf \/ (exists q, r = Fin q /\ (q < 0)%Qc) \/ min_num < 0 ->
  gridding_g E G og ip values r min_num st = Throw InvalidArgument /\ gridding_p E G op ip values r min_num st = Throw InvalidArgument.
Proof. exact gridding_invalid. Qed.
Print Assumptions C44_gridding_invalid_partial.
Theorem C44_gridding_boundary_refuted : forall E G, geo_ok G -> exists P g, is_points G Cartesian [qz 0] [qz 1000] P /\ is_grid G Cartesian 1 1 [[qz 0]] [[qz 0]] g /\
  sqdist (position G Cartesian (qz 0) (qz 0)) (position G Cartesian (qz 0) (qz 1000)) = (qz 1000 * qz 1000)%Qc /\
  gridding_g E G g P [fz 7] (fz 1000) 1 Mean = Ok [[MV]].
Proof. exact c44_refuted. Qed.
Print Assumptions C44_gridding_boundary_refuted.
Example C44_example : exists g P, is_grid G0 Cartesian 2 3 lats23 lons23 g /\ is_points G0 Cartesian [qz 0; qz 0; qz 1] [qz 0; qz 1; qz 1] P /\
  gridding_g E0 G0 g P [fz 1; fz 2; fz 4] (fq (3#2)) 1 Sum = Ok [[fz 7; fz 7; fz 6]; [fz 7; fz 7; fz 6]] /\
  gridding_g E0 G0 g P [fz 1; fz 2; fz 4] (fq (1#2)) 1 Sum = Ok [[fz 1; fz 2; NaN]; [NaN; fz 4; NaN]].
Proof. eexists. eexists. split; [grid_now|]. split; [points_now|]. repeat split; vm_compute; reflexivity. Qed.

(** C45 *)
Theorem C45_gridding_nearest_grid : forall E G t las los ip t' Y X lats lons og values, geo_ok G -> is_points G t las los ip ->
  is_grid G t' Y X lats lons og -> valid_all t' las -> zlen values = zlen las ->
  exists cell : Z -> Z * Z,
  (forall s la lo, znth las s = Ok la -> znth los s = Ok lo -> closest (grid_at' G t' lats lons) (position G t' la lo) true (cell s)) /\
  (forall min_num st, 0 <= min_num -> stat_listed st -> exists out, gridding_nearest_g E G og ip values min_num st = Ok out /\ rect Y X out /\
     forall y x, 0 <= y < Y -> 0 <= x < X ->
       exists v, get2 out y x = Ok v /\ cell_value E min_num st (pick (fun s => zz_eqb (cell s) (y, x)) values) v) /\
  (forall min_num, 0 <= min_num <= 1 ->
     (exists out, gridding_nearest_g E G og ip values min_num Count = Ok out /\ vsum_finite (concat out) = qlen (finites values)) /\
     (exists out, gridding_nearest_g E G og ip values min_num Sum = Ok out /\ vsum_finite (concat out) = qsum (finites values))) /\
  (forall vs min_num st, min_num < 0 \/ zlen vs <> zlen las -> gridding_nearest_g E G og ip vs min_num st = Throw InvalidArgument).
Proof. exact c45_grid. Qed.
Print Assumptions C45_gridding_nearest_grid.
Theorem C45_gridding_nearest_points : forall E G t las los ip t' las' los' op values, geo_ok G -> is_points G t las los ip ->
  is_points G t' las' los' op -> las' <> [] -> valid_all t' las -> zlen values = zlen las ->
  exists idx : Z -> Z,
  (forall s la lo, znth las s = Ok la -> znth los s = Ok lo -> closest (point_at G t' las' los') (position G t' la lo) true (idx s)) /\
  (forall min_num st, 0 <= min_num -> stat_listed st -> exists out, gridding_nearest_p E G op ip values min_num st = Ok out /\ zlen out = zlen las' /\
     forall n, 0 <= n < zlen las' ->
       exists v, znth out n = Ok v /\ cell_value E min_num st (pick (fun s => idx s =? n) values) v) /\
  (forall min_num, 0 <= min_num <= 1 ->
     (exists out, gridding_nearest_p E G op ip values min_num Count = Ok out /\ vsum_finite out = qlen (finites values)) /\
     (exists out, gridding_nearest_p E G op ip values min_num Sum = Ok out /\ vsum_finite out = qsum (finites values))) /\
  (forall vs min_num st, min_num < 0 \/ zlen vs <> zlen las -> gridding_nearest_p E G op ip vs min_num st = Throw InvalidArgument).
Proof. exact c45_points. Qed.
Print Assumptions C45_gridding_nearest_points.
Example C45_example : exists g P, is_grid G0 Cartesian 2 3 lats23 lons23 g /\ is_points G0 Cartesian [qz 0; qz 0; qz 1] [qz 0; qz 9; qz 9] P /\
  gridding_nearest_g E0 G0 g P [fz 1; fz 2; fz 4] 1 Sum = Ok [[fz 1; NaN; fz 2]; [NaN; NaN; fz 4]].
Proof. eexists. eexists. split; [grid_now|]. split; [points_now|]. vm_compute; reflexivity. Qed.

(** C46: fails for a cell exactly at the radius along an axis *)
Theorem C46_fill_partial : forall G t Y X lats lons ig tp las los P input radii value, geo_ok G -> is_grid G t Y X lats lons ig ->
  is_points G tp las los P -> valid_all t las -> rect Y X input -> zlen radii = zlen las -> (forall r, In r radii -> vltb r (fz 0) = false) ->
  exists inside outside, fill G ig input P radii value false = Ok inside /\ fill G ig input P radii value true = Ok outside /\
  rect Y X inside /\ rect Y X outside /\
  forall y x v0, get2 input y x = Ok v0 ->
    ((exists i la lo r q, znth las i = Ok la /\ znth los i = Ok lo /\ znth radii i = Ok r /\ grid_at G t lats lons y x q /\ in_circle (position G t la lo) q r) ->
       get2 inside y x = Ok value /\ get2 outside y x = Ok v0) /\
    ((forall i la lo r q, znth las i = Ok la -> znth los i = Ok lo -> znth radii i = Ok r -> grid_at G t lats lons y x q -> ~ in_circle (position G t la lo) q r) ->
       get2 inside y x = Ok v0 /\ get2 outside y x = Ok value).
Proof. exact c46_partial. Qed.
Print Assumptions C46_fill_partial.
Theorem C46_fill_throws : forall G t Y X lats lons ig tp las los P input radii value outside, is_grid G t Y X lats lons ig -> is_points G tp las los P ->
  rect Y X input ->
  zlen radii <> zlen las \/ (exists r, In r radii /\ vltb r (fz 0) = true) ->
  fill G ig input P radii value outside = Throw InvalidArgument.
Proof. exact c46_throws. Qed.
Print Assumptions C46_fill_throws.
Theorem C46_fill_boundary_refuted : forall G, geo_ok G -> exists P g, is_points G Cartesian [qz 0] [qz 1000] P /\ is_grid G Cartesian 1 1 [[qz 0]] [[qz 0]] g /\
  sqdist (position G Cartesian (qz 0) (qz 1000)) (position G Cartesian (qz 0) (qz 0)) = (qz 1000 * qz 1000)%Qc /\
  fill G g [[fz 1]] P [fz 1000] (fz 7) false = Ok [[fz 1]].
Proof. exact c46_refuted. Qed.
Print Assumptions C46_fill_boundary_refuted.
Example C46_example : exists g P, is_grid G0 Cartesian 2 3 lats23 lons23 g /\ is_points G0 Cartesian [qz 0] [qz 0] P /\
  fill G0 g [[fz 1; fz 2; fz 3]; [fz 4; fz 5; fz 6]] P [fq (3#2)] (fz 9) false = Ok [[fz 9; fz 9; fz 3]; [fz 9; fz 9; fz 6]] /\
  fill G0 g [[fz 1; fz 2; fz 3]; [fz 4; fz 5; fz 6]] P [fq (3#2)] (fz 9) true = Ok [[fz 1; fz 2; fz 9]; [fz 4; fz 5; fz 9]].
Proof. eexists. eexists. split; [grid_now|]. split; [points_now|]. split; vm_compute; reflexivity. Qed.

(** C47: the circle variant fails for a cell exactly at the radius along an axis *)
Theorem C47_doping_square : forall G t Y X lats lons ig tp las los P, geo_ok G -> is_grid G t Y X lats lons ig ->
  is_points G tp las los P -> valid_all t las ->
  exists cell : Z -> Z * Z,
  (forall i la lo, znth las i = Ok la -> znth los i = Ok lo -> closest (grid_at' G t lats lons) (position G t la lo) true (cell i)) /\
  forall background obs hw m, rect Y X background -> zlen obs = zlen las -> zlen hw = zlen las ->
  (forall h, In h hw -> 0 <= h) -> is_valid m && vltb m (fz 0) = false ->
  let target i y x := square_reach cell hw i y x /\ not_excluded ig P m i y x in
  exists out, doping_square G ig background P obs hw m = Ok out /\ rect Y X out /\ forall y x, 0 <= y < Y -> 0 <= x < X ->
    (untouched (zlen las) target y x -> get2 out y x = get2 background y x) /\
    (forall i, last_writer (zlen las) target y x i -> get2 out y x = znth obs i).
Proof. exact c47_square. Qed.
Print Assumptions C47_doping_square.
Theorem C47_doping_circle_partial : forall G t Y X lats lons ig tp las los P background obs radii m, geo_ok G -> is_grid G t Y X lats lons ig ->
  is_points G tp las los P -> valid_all t las -> rect Y X background -> zlen obs = zlen las -> zlen radii = zlen las ->
  (forall r, In r radii -> vltb r (fz 0) = false) -> is_valid m && vltb m (fz 0) = false ->
  let target i y x := circle_reach G t lats lons las los radii i y x /\ not_excluded ig P m i y x in
  exists out, doping_circle G ig background P obs radii m = Ok out /\ rect Y X out /\ forall y x, 0 <= y < Y -> 0 <= x < X ->
    (untouched (zlen las) target y x -> get2 out y x = get2 background y x) /\
    (forall i, last_writer (zlen las) target y x i -> get2 out y x = znth obs i).
Proof. exact c47_circle. Qed.
Print Assumptions C47_doping_circle_partial.
Theorem C47_doping_throws : forall G t Y X lats lons ig tp las los P background obs hw radii m, is_grid G t Y X lats lons ig -> is_points G tp las los P ->
  rect Y X background -> zlen obs = zlen las -> zlen hw = zlen las -> zlen radii = zlen las ->
  ((exists h, In h hw /\ h < 0) \/ (exists q, m = Fin q /\ (q < 0)%Qc) -> doping_square G ig background P obs hw m = Throw InvalidArgument) /\
  ((exists r, In r radii /\ vltb r (fz 0) = true) \/ (exists q, m = Fin q /\ (q < 0)%Qc) -> doping_circle G ig background P obs radii m = Throw InvalidArgument).
Proof. exact c47_throws. Qed.
Print Assumptions C47_doping_throws.
Theorem C47_doping_circle_boundary_refuted : forall G, geo_ok G -> exists P g, is_points G Cartesian [qz 0] [qz 1000] P /\ is_grid G Cartesian 1 1 [[qz 0]] [[qz 0]] g /\
  sqdist (position G Cartesian (qz 0) (qz 1000)) (position G Cartesian (qz 0) (qz 0)) = (qz 1000 * qz 1000)%Qc /\
  doping_circle G g [[fz 1]] P [fz 7] [fz 1000] NaN = Ok [[fz 1]].
Proof. exact c47_refuted. Qed.
Print Assumptions C47_doping_circle_boundary_refuted.
Example C47_example : exists g P, is_grid G0 Cartesian 2 3 lats23 lons23 g /\ is_points G0 Cartesian [qz 0; qz 0] [qz 0; qz 2] P /\
  doping_square G0 g [[fz 1; fz 2; fz 3]; [fz 4; fz 5; fz 6]] P [fz 7; fz 8] [1; 1] NaN = Ok [[fz 7; fz 8; fz 8]; [fz 7; fz 8; fz 8]] /\
  doping_square G0 g [[fz 1; fz 2; fz 3]; [fz 4; fz 5; fz 6]] P [fz 7; fz 8] [0; 0] NaN = Ok [[fz 7; fz 2; fz 8]; [fz 4; fz 5; fz 6]] /\
  doping_circle G0 g [[fz 1; fz 2; fz 3]; [fz 4; fz 5; fz 6]] P [fz 7; fz 8] [fq (1#2); fq (11#10)] NaN = Ok [[fz 7; fz 8; fz 8]; [fz 4; fz 5; fz 8]].
Proof. eexists. eexists. split; [grid_now|]. split; [points_now|]. repeat split; vm_compute; reflexivity. Qed.

(** C48 *)
Theorem C48_fill_missing : forall Y X v, 0 < Y -> rect Y X v -> exists out, fill_missing v = Ok out /\ rect Y X out /\
  (forall y x q, get2 v y x = Ok (Fin q) -> get2 out y x = Ok (Fin q)) /\
  (forall y x w, get2 v y x = Ok w -> is_valid w = false ->
     let row := fun x => field_at v y x in let col := fun y => field_at v y x in
     (forall r, gap_value X row x r -> no_gap_value Y col y -> get2 out y x = Ok (Fin r)) /\
     (forall c, no_gap_value X row x -> gap_value Y col y c -> get2 out y x = Ok (Fin c)) /\
     (forall r c, gap_value X row x r -> gap_value Y col y c -> get2 out y x = Ok (Fin ((r + c) / qz 2)%Qc)) /\
     (no_gap_value X row x -> no_gap_value Y col y -> get2 out y x = Ok MV)) /\
  ((forall y x w, get2 v y x = Ok w -> is_valid w = true) -> out = v).
Proof. exact c48_all. Qed.
Print Assumptions C48_fill_missing.
Example C48_example : fill_missing [[fz 1; NaN; fz 3]; [NaN; NaN; fz 0]; [fz 5; fz 6; fz 7]] =
  Ok [[fz 1; fz 2; fz 3]; [fz 3; NaN; fz 0]; [fz 5; fz 6; fz 7]].
Proof. vcalc. Qed.

(** C49: leading and trailing gaps stay missing *)
Theorem C49_fill_missing_complete_refuted : exists v out, rect 1 2 v /\ get2 v 0 1 = Ok (fz 1) /\ fill_missing v = Ok out /\ get2 out 0 0 = Ok NaN.
Proof. exact c49_refuted. Qed.
Print Assumptions C49_fill_missing_complete_refuted.
Theorem C49_fill_missing_complete_partial : forall Y X v, 0 < Y -> rect Y X v ->
  (forall y x w, get2 v y x = Ok w -> is_valid w = false ->
     (exists l r a b, l < x < r /\ get2 v y l = Ok (Fin a) /\ get2 v y r = Ok (Fin b)) \/
     (exists l r a b, l < y < r /\ get2 v l x = Ok (Fin a) /\ get2 v r x = Ok (Fin b))) ->
  exists out, fill_missing v = Ok out /\ rect Y X out /\ forall y x w, get2 out y x = Ok w -> exists q, w = Fin q.
Proof. exact c49_partial. Qed.
Print Assumptions C49_fill_missing_complete_partial.
Example C49_example : fill_missing [[fz 1; NaN; fz 3]] = Ok [[fz 1; fz 2; fz 3]].
Proof. vcalc. Qed.

(** C69 *)
Theorem C69_count : forall G t r, geo_ok G ->
  (* output locations on a grid *)
  (forall t' Y' X' lats' lons' og, is_grid G t' Y' X' lats' lons' og -> valid_all2 t lats' ->
     (forall Y X lats lons ig, is_grid G t Y X lats lons ig -> exists out, count_g G (g_tree ig) og r = Ok out /\ rect Y' X' out /\
        forall y x la lo, get2 lats' y x = Ok la -> get2 lons' y x = Ok lo ->
          exists v, get2 out y x = Ok v /\ count_value (grid_at' G t lats lons) (position G t la lo) r v) /\
     (forall las los ip, is_points G t las los ip -> exists out, count_g G (s_tree ip) og r = Ok out /\ rect Y' X' out /\
        forall y x la lo, get2 lats' y x = Ok la -> get2 lons' y x = Ok lo ->
          exists v, get2 out y x = Ok v /\ count_value (point_at G t las los) (position G t la lo) r v)) /\
  (* output locations in a list of points *)
  (forall t' las' los' op, is_points G t' las' los' op -> valid_all t las' ->
     (forall Y X lats lons ig, is_grid G t Y X lats lons ig -> exists out, count_p G (g_tree ig) op r = Ok out /\ zlen out = zlen las' /\
        forall n la lo, znth las' n = Ok la -> znth los' n = Ok lo ->
          exists v, znth out n = Ok v /\ count_value (grid_at' G t lats lons) (position G t la lo) r v) /\
     (forall las los ip, is_points G t las los ip -> exists out, count_p G (s_tree ip) op r = Ok out /\ zlen out = zlen las' /\
        forall n la lo, znth las' n = Ok la -> znth los' n = Ok lo ->
          exists v, znth out n = Ok v /\ count_value (point_at G t las los) (position G t la lo) r v)).
Proof. exact c69_all. Qed.
Print Assumptions C69_count.
Example C69_example : exists g P, is_grid G0 Cartesian 2 3 lats23 lons23 g /\ is_points G0 Cartesian [qz 0; qz 0] [qz 0; qz 2] P /\
  count_p G0 (g_tree g) P (fq (3#2)) = Ok [fz 4; fz 4] /\ count_g G0 (s_tree P) g (fq (3#2)) = Ok [[fz 1; fz 2; fz 1]; [fz 1; fz 2; fz 1]].
Proof. eexists. eexists. split; [grid_now|]. split; [points_now|]. split; vm_compute; reflexivity. Qed.
