(** distance() to the closest locations of a grid or point set: C94. *)
From Coq Require Import Reals Lra.
From Verif Require Import Base RBase M_Geo S_Geo S_Near M_Dist S_Dist P_Geo P_DistAll.
Local Open Scope Z_scope.

Ltac rect_now := split; [reflexivity | cbn; intuition (subst; reflexivity)].
Ltac grid_now := split; [lia|]; split; [lia|]; split; [rect_now|]; split; [rect_now|];
  exists [], []; split; [auto|]; split; [auto|]; cbn; reflexivity.
Ltac points_now := exists [], []; cbn; reflexivity.
(** C94 *)
Theorem C94_grid_to_points : forall G t Y X lats lons g las los P num, geo_ok G -> is_grid G t Y X lats lons g -> is_points G t las los P -> 1 <= num ->
  exists out, distance_gp G g P num = Ok out /\ zlen out = zlen las /\
  forall i la lo, znth las i = Ok la -> znth los i = Ok lo -> exists r, znth out i = Ok r /\
    knn_distance (grid_at' G t lats lons) (grid_coords lats lons) (position G t la lo) t la lo num r.
Proof. exact c94_gp. Qed.
Print Assumptions C94_grid_to_points.
Theorem C94_grid_to_grid : forall G t Y X lats lons g Y' X' lats' lons' og num, geo_ok G -> is_grid G t Y X lats lons g -> is_grid G t Y' X' lats' lons' og -> 1 <= num ->
  exists out, distance_gg G g og num = Ok out /\ rect Y' X' out /\
  forall i j la lo, get2 lats' i j = Ok la -> get2 lons' i j = Ok lo -> exists r, get2 out i j = Ok r /\
    knn_distance (grid_at' G t lats lons) (grid_coords lats lons) (position G t la lo) t la lo num r.
Proof. exact c94_gg. Qed.
Print Assumptions C94_grid_to_grid.
Theorem C94_points_to_grid : forall G t las los P Y' X' lats' lons' og num, geo_ok G -> is_points G t las los P -> is_grid G t Y' X' lats' lons' og -> 1 <= num ->
  exists out, distance_pg G P og num = Ok out /\ rect Y' X' out /\
  forall i j la lo, get2 lats' i j = Ok la -> get2 lons' i j = Ok lo -> exists r, get2 out i j = Ok r /\
    knn_distance (point_at G t las los) (point_coords las los) (position G t la lo) t la lo num r.
Proof. exact c94_pg. Qed.
Print Assumptions C94_points_to_grid.
Theorem C94_points_to_points : forall G t las los P las' los' op num, geo_ok G -> is_points G t las los P -> is_points G t las' los' op -> 1 <= num ->
  exists out, distance_pp G P op num = Ok out /\ zlen out = zlen las' /\
  forall i la lo, znth las' i = Ok la -> znth los' i = Ok lo -> exists r, znth out i = Ok r /\
    knn_distance (point_at G t las los) (point_coords las los) (position G t la lo) t la lo num r.
Proof. exact c94_pp. Qed.
Print Assumptions C94_points_to_points.
Theorem C94_coordinate_types : forall G num, 
  (forall g P, grid_type g <> points_type P -> distance_gp G g P num = Throw InvalidArgument /\ distance_pg G P g num = Throw InvalidArgument) /\
  (forall g g', grid_type g <> grid_type g' -> distance_gg G g g' num = Throw InvalidArgument) /\
  (forall P P', points_type P <> points_type P' -> distance_pp G P P' num = Throw InvalidArgument).
Proof. exact c94_types. Qed.
Print Assumptions C94_coordinate_types.
Theorem C94_more_neighbours : forall G num num', geo_ok G -> 1 <= num <= num' ->
  (forall Y X lats lons g las los P, is_grid G Cartesian Y X lats lons g -> is_points G Cartesian las los P ->
     (exists a b, distance_gp G g P num = Ok a /\ distance_gp G g P num' = Ok b /\ all_le a b) /\
     (exists a b, distance_pg G P g num = Ok a /\ distance_pg G P g num' = Ok b /\ all_le2 a b)) /\
  (forall Y X lats lons g Y' X' lats' lons' g', is_grid G Cartesian Y X lats lons g -> is_grid G Cartesian Y' X' lats' lons' g' ->
     exists a b, distance_gg G g g' num = Ok a /\ distance_gg G g g' num' = Ok b /\ all_le2 a b) /\
  (forall las los P las' los' P', is_points G Cartesian las los P -> is_points G Cartesian las' los' P' ->
     exists a b, distance_pp G P P' num = Ok a /\ distance_pp G P P' num' = Ok b /\ all_le a b).
Proof. exact c94_mono. Qed.
Print Assumptions C94_more_neighbours.
Theorem C94_one_neighbour : forall G, geo_ok G ->
  (forall Y X lats lons g las los P, is_grid G Cartesian Y X lats lons g -> is_points G Cartesian las los P ->
     (exists out, distance_gp G g P 1 = Ok out /\ zlen out = zlen las /\ forall i la lo, znth las i = Ok la -> znth los i = Ok lo ->
        exists r, znth out i = Ok r /\ nearest_dist (grid_coords lats lons) la lo r) /\
     (las <> [] -> exists out, distance_pg G P g 1 = Ok out /\ rect Y X out /\ forall i j la lo, get2 lats i j = Ok la -> get2 lons i j = Ok lo ->
        exists r, get2 out i j = Ok r /\ nearest_dist (point_coords las los) la lo r)) /\
  (forall Y X lats lons g Y' X' lats' lons' g', is_grid G Cartesian Y X lats lons g -> is_grid G Cartesian Y' X' lats' lons' g' ->
     exists out, distance_gg G g g' 1 = Ok out /\ rect Y' X' out /\ forall i j la lo, get2 lats' i j = Ok la -> get2 lons' i j = Ok lo ->
        exists r, get2 out i j = Ok r /\ nearest_dist (grid_coords lats lons) la lo r) /\
  (forall las los P las' los' P', is_points G Cartesian las los P -> is_points G Cartesian las' los' P' -> las <> [] ->
     exists out, distance_pp G P P' 1 = Ok out /\ zlen out = zlen las' /\ forall i la lo, znth las' i = Ok la -> znth los' i = Ok lo ->
        exists r, znth out i = Ok r /\ nearest_dist (point_coords las los) la lo r).
Proof. exact c94_one. Qed.
Print Assumptions C94_one_neighbour.
(** nearest of (0,0), (0,3), (4,3) seen from (0,4) is at distance 1 *)
Example C94_example : geo_ok G0 /\ exists P op, is_points G0 Cartesian [qz 0; qz 0; qz 3] [qz 0; qz 3; qz 4] P /\
  is_points G0 Cartesian [qz 0] [qz 4] op /\ distance_pp G0 P op 1 = Ok [RF 1].
Proof.
  split; [exact geo_ok_G0|]. eexists. eexists. split; [points_now|]. split; [points_now|].
  match goal with |- distance_pp _ ?P ?Q _ = _ =>
    assert (HP : is_points G0 Cartesian [qz 0; qz 0; qz 3] [qz 0; qz 3; qz 4] P) by points_now;
    assert (HQ : is_points G0 Cartesian [qz 0] [qz 4] Q) by points_now end.
  destruct (proj2 (proj2 (c94_one G0 geo_ok_G0)) _ _ _ _ _ _ HP HQ) as (out & -> & L & K); [discriminate|].
  destruct (K 0 (qz 0) (qz 4) eq_refl eq_refl) as (r & Hr & d & -> & (i & la & lo & [Ha Hb] & D0 & D1) & Hm).
  assert (out = [RF d]) as ->. { destruct out as [|a [|b out]]; cbn in L; try discriminate; [|unfold zlen in L; cbn [length] in L; lia]. change (znth [a] 0) with (@Ok rv a) in Hr. congruence. }
  cut (d = 1%R); [intros ->; reflexivity|].
  assert (X : (d <= 1)%R). { apply (Hm 1). exists (qz 0), (qz 3). split; [split; reflexivity|]. split; [lra|]. unfold plane2. rewrite !P_RBase.qr_z. lra. }
  assert (i = 0 \/ i = 1 \/ i = 2) as [-> | [-> | ->]] by (apply ListLib.znth_range in Ha; change (zlen [qz 0; qz 0; qz 3]) with 3 in Ha; lia);
    cbv -[qz] in Ha, Hb; injection Ha as <-; injection Hb as <-; unfold plane2 in D1; rewrite !P_RBase.qr_z in D1; try (exfalso; nra).
  apply Rsqr_inj; [lra|lra|]. unfold Rsqr. lra.
Qed.
