(** Property theorems C35-C41 and C68. *)
From Verif Require Import Base M_Geo S_Geo P_Geo P_Neighbours P_Grid P_Points P_Box.

(** the rtree contract used below is met by a concrete search (linear scan) *)
Example geo_contract_satisfiable : geo_ok G0.
Proof. exact geo_ok_G0. Qed.
Ltac rect_now := split; [reflexivity | cbn; intuition (subst; reflexivity)].
Ltac grid_now := split; [lia|]; split; [lia|]; split; [rect_now|]; split; [rect_now|];
  exists [], []; split; [auto|]; split; [auto|]; cbn; reflexivity.

(** C35 *)
Theorem C35_grid_index_round_trip : forall G t Y X lats lons g, is_grid G t Y X lats lons g ->
  grid_size g = Ok (Y, X) /\
  (forall k, 0 <= k < Y * X -> exists y x, get_indices g k = Ok (y, x) /\ 0 <= y < Y /\ 0 <= x < X /\ k = y * X + x) /\
  (forall k l, 0 <= k -> 0 <= l -> get_indices g k = get_indices g l -> k = l) /\
  (exists P, to_points g = Ok P /\ points_size P = Y * X /\ points_type P = t /\
     forall k y x, 0 <= k < Y * X -> get_indices g k = Ok (y, x) ->
       exists p, points_get P k = Ok p /\ grid_get g y x = Ok p /\
         get2 (mFin lats) y x = Ok (p_lat p) /\ get2 (mFin lons) y x = Ok (p_lon p) /\
         get2 (g_elevs g) y x = Ok (p_elev p) /\ get2 (g_lafs g) y x = Ok (p_laf p)).
Proof. exact c35_all. Qed.
Print Assumptions C35_grid_index_round_trip.
Example C35_example : exists g, is_grid G0 Cartesian 2 3 [[qz 0; qz 0; qz 0]; [qz 1; qz 1; qz 1]] [[qz 0; qz 1; qz 2]; [qz 0; qz 1; qz 2]] g /\
  grid_size g = Ok (2, 3) /\ get_indices g 4 = Ok (1, 1).
Proof. eexists. split; [grid_now|]. split; vm_compute; reflexivity. Qed.

(** C36: the full statement (exactly the points with distance <= radius) fails at the boundary *)
Theorem C36_radius_search_partial : forall G t las los T la lo r inc, geo_ok G -> is_tree G t las los T -> valid_loc t la ->
  exists I, get_neighbours G T (Fin la) (Fin lo) (Fin r) inc = Ok I /\ NoDup I /\
  (forall i, In i I <-> exists q, point_at G t las los i q /\
     near_axes (position G t la lo) q r /\ (sqdist (position G t la lo) q <= r * r)%Qc /\
     (inc = true \/ (0 < sqdist (position G t la lo) q)%Qc)) /\
  (* in particular every point strictly inside the radius is found *)
  (forall i q, point_at G t las los i q -> (0 <= r)%Qc -> (sqdist (position G t la lo) q < r * r)%Qc ->
     (inc = true \/ (0 < sqdist (position G t la lo) q)%Qc) -> In i I) /\
  get_num_neighbours G T (Fin la) (Fin lo) (Fin r) inc = Ok (zlen I).
Proof. exact c36_partial. Qed.
Print Assumptions C36_radius_search_partial.
Theorem C36_radius_search_refuted : forall G, geo_ok G -> exists las los T la lo r,
  is_tree G Cartesian las los T /\ (0 <= r)%Qc /\
  (exists q, point_at G Cartesian las los 0 q /\ (sqdist (position G Cartesian la lo) q <= r * r)%Qc) /\
  (exists q, point_at G Cartesian las los 1 q /\ sqdist (position G Cartesian la lo) q = 0%Qc) /\
  get_neighbours G T (Fin la) (Fin lo) (Fin r) true = Ok [1] /\
  get_neighbours G T (Fin la) (Fin lo) (Fin 0) true = Ok [].
Proof. exact c36_refuted. Qed.
Print Assumptions C36_radius_search_refuted.
Example C36_example : exists T, is_tree G0 Cartesian [qz 0; qz 3; qz 9] [qz 0; qz 4; qz 9] T /\
  get_neighbours G0 T (fz 0) (fz 0) (fz 5) true = Ok [0; 1] /\ get_neighbours G0 T (fz 0) (fz 0) (fz 5) false = Ok [1] /\
  get_neighbours G0 T (fz 0) (fz 0) (fz 3) true = Ok [0] /\ get_neighbours G0 T NaN (fz 0) (fz 3) true = Throw InvalidArgument.
Proof. eexists. split; [cbn; reflexivity|]. repeat split; vm_compute; reflexivity. Qed.

(** C37 *)
Theorem C37_nearest_neighbours : forall G t, geo_ok G ->
  (forall las los T la lo num inc, is_tree G t las los T -> valid_loc t la -> 1 <= num ->
    exists I, get_closest_neighbours G T (Fin la) (Fin lo) num inc = Ok I /\ NoDup I /\ zlen I <= num /\
    (forall i, In i I -> exists q, point_at G t las los i q /\ qualifies (position G t la lo) inc q) /\
    (zlen I < num -> forall i q, point_at G t las los i q -> qualifies (position G t la lo) inc q -> In i I) /\
    (forall i j qi qj, In i I -> point_at G t las los i qi -> point_at G t las los j qj ->
       qualifies (position G t la lo) inc qj -> ~ In j I ->
       (sqdist (position G t la lo) qi <= sqdist (position G t la lo) qj)%Qc)) /\
  (forall las los P la lo inc, is_tree G t las los (s_tree P) -> valid_loc t la ->
    (points_nearest G P (Fin la) (Fin lo) inc = Ok (-1) /\ none_qualifies (point_at G t las los) (position G t la lo) inc) \/
    (exists i, 0 <= i < zlen las /\ points_nearest G P (Fin la) (Fin lo) inc = Ok i /\
       closest (point_at G t las los) (position G t la lo) inc i)) /\
  (forall Y X lats lons g la lo inc, is_grid G t Y X lats lons g -> valid_loc t la ->
    (grid_nearest G g (Fin la) (Fin lo) inc = Ok None /\ none_qualifies (grid_at' G t lats lons) (position G t la lo) inc) \/
    (exists c, grid_nearest G g (Fin la) (Fin lo) inc = Ok (Some c) /\ closest (grid_at' G t lats lons) (position G t la lo) inc c)).
Proof. exact c37_all. Qed.
Print Assumptions C37_nearest_neighbours.
Example C37_example : exists P, is_points G0 Cartesian [qz 0; qz 3; qz 9] [qz 0; qz 4; qz 9] P /\
  get_closest_neighbours G0 (s_tree P) (fz 8) (fz 8) 2 true = Ok [2; 1] /\
  points_nearest G0 P (fz 3) (fz 4) true = Ok 1 /\ points_nearest G0 P (fz 3) (fz 4) false = Ok 0.
Proof. eexists. split; [exists [], []; cbn; reflexivity|]. repeat split; vm_compute; reflexivity. Qed.

(** C38: fails for Cartesian objects *)
Theorem C38_copies_keep_type_partial : forall G las los P, is_points G Geodetic las los P ->
  points_copy G P = Ok P /\ points_assign G P = Ok P /\
  (forall I, Forall (fun i => 0 <= i < zlen las) I ->
     exists Q, points_subset G P I = Ok Q /\ points_type Q = points_type P /\ points_size Q = zlen I /\
     forall k i, znth I k = Ok i -> exists p, points_get Q k = Ok p /\ points_get P i = Ok p) /\
  (forall g I, in_domain_indices G P g = Ok I -> in_domain G P g = points_subset G P I).
Proof. exact c38_partial. Qed.
Print Assumptions C38_copies_keep_type_partial.
Theorem C38_copies_keep_type_refuted : forall G, geo_ok G ->
  (exists P Q, is_points G Cartesian [qz 0; qz 10] [qz 0; qz 0] P /\ points_copy G P = Ok Q /\
     points_type P = Cartesian /\ points_type Q = Geodetic) /\
  (exists P, is_points G Cartesian [qz 1000] [qz 0] P /\ points_copy G P = Throw InvalidArgument /\
     points_assign G P = Throw InvalidArgument /\ points_subset G P [0] = Throw InvalidArgument) /\
  (exists P Q, is_points G Cartesian [qz 0; qz 10] [qz 0; qz 0] P /\ points_subset G P [0; 1] = Ok Q /\ points_type Q = Geodetic).
Proof. exact c38_refuted. Qed.
Print Assumptions C38_copies_keep_type_refuted.
Example C38_example : exists P, is_points G0 Geodetic [qz 60; qz 61] [qz 10; qz 10] P.
Proof. eexists. exists [], []. cbn. reflexivity. Qed.

(** C39: fails for Cartesian points *)
Theorem C39_point_position_partial : forall G las los,
  (forall P i p, is_points G Geodetic las los P -> points_get P i = Ok p ->
     mk_point G (p_lat p) (p_lon p) (p_elev p) (p_laf p) Geodetic = Ok p) /\
  (forall Y X lats lons g y x p, is_grid G Geodetic Y X lats lons g -> grid_get g y x = Ok p ->
     mk_point G (p_lat p) (p_lon p) (p_elev p) (p_laf p) Geodetic = Ok p) /\
  (forall P i j p q p' q', is_points G Cartesian las los P -> points_get P i = Ok p -> points_get P j = Ok q ->
     mk_point G (p_lat p) (p_lon p) (p_elev p) (p_laf p) Cartesian = Ok p' ->
     mk_point G (p_lat q) (p_lon q) (p_elev q) (p_laf q) Cartesian = Ok q' -> pdist2 p' q' = pdist2 p q).
Proof. exact c39_partial. Qed.
Print Assumptions C39_point_position_partial.
Theorem C39_point_position_refuted : exists G las los P p q, geo_ok G /\ is_points G Cartesian las los P /\ points_get P 0 = Ok p /\
  mk_point G (p_lat p) (p_lon p) (p_elev p) (p_laf p) Cartesian = Ok q /\ p_x q <> p_x p /\
  pdist2 p q <> fz 0.
Proof. exact c39_refuted. Qed.
Print Assumptions C39_point_position_refuted.
Example C39_example : exists P p, is_points G0 Geodetic [qz 60; qz 61] [qz 10; qz 10] P /\ points_get P 1 = Ok p.
Proof. eexists. eexists. split; [exists [], []; cbn; reflexivity|]. cbn. reflexivity. Qed.

(** C40 *)
Theorem C40_get_box : forall G t nY nX lats lons g la lo, geo_ok G -> is_grid G t nY nX lats lons g -> valid_loc t la ->
  exists y x, grid_nearest G g (Fin la) (Fin lo) true = Ok (Some (y, x)) /\ 0 <= y < nY /\ 0 <= x < nX /\
  closest (grid_at' G t lats lons) (position G t la lo) true (y, x) /\
  ((nY = 1 \/ nX = 1) -> get_box G g (Fin la) (Fin lo) = Ok None) /\
  (forall Y1 X1 Y2 X2, get_box G g (Fin la) (Fin lo) = Ok (Some (Y1, X1, Y2, X2)) ->
     0 <= Y1 /\ Y2 = Y1 + 1 /\ Y2 < nY /\ 0 <= X1 /\ X2 = X1 + 1 /\ X2 < nX /\
     (y = Y1 \/ y = Y2) /\ (x = X1 \/ x = X2) /\ in_cell lats lons y x (Y1 + Y2 - y) (X1 + X2 - x) la lo) /\
  (get_box G g (Fin la) (Fin lo) = Ok None -> 1 < nY -> 1 < nX ->
     forall y' x', (y' = y - 1 \/ y' = y + 1) -> (x' = x - 1 \/ x' = x + 1) -> 0 <= y' < nY -> 0 <= x' < nX ->
     ~ in_cell lats lons y x y' x' la lo) /\
  (t = Geodetic -> exists b, get_box G g (Fin la) (Fin lo) = Ok b) /\
  ((exists b, get_box G g (Fin la) (Fin lo) = Ok b) \/ get_box G g (Fin la) (Fin lo) = Throw InvalidArgument).
Proof. exact c40_all. Qed.
Print Assumptions C40_get_box.
Example C40_example : exists g, is_grid G0 Geodetic 2 3 [[qz 0; qz 0; qz 0]; [qz 1; qz 1; qz 1]] [[qz 0; qz 1; qz 2]; [qz 0; qz 1; qz 2]] g /\
  get_box G0 g (fq (1#4)) (fq (7#4)) = Ok (Some (0, 1, 1, 2)) /\ get_box G0 g (fz 5) (fz 5) = Ok None.
Proof. eexists. split; [grid_now|]. split; vm_compute; reflexivity. Qed.

(** C41 *)
Theorem C41_point_in_rectangle : forall A B C D m ax ay bx by_ cx cy dx dy mx my,
  at_xy A ax ay -> at_xy B bx by_ -> at_xy C cx cy -> at_xy D dx dy -> at_xy m mx my ->
  (* any four corners: on the inner side of every edge *)
  (point_in_rectangle A B C D m = true <-> inside_edges ax ay bx by_ cx cy dx dy mx my) /\
  (* a parallelogram that is not degenerate *)
  (cx = (bx + dx - ax)%Qc -> cy = (by_ + dy - ay)%Qc -> cross ax ay bx by_ dx dy <> 0%Qc ->
     (point_in_rectangle A B C D m = true <-> in_parallelogram ax ay bx by_ dx dy mx my)) /\
  (* an axis-aligned rectangle, any starting corner, either direction *)
  ((bx = ax /\ by_ = cy /\ dx = cx /\ dy = ay) \/ (bx = cx /\ by_ = ay /\ dx = ax /\ dy = cy) ->
     ax <> cx -> ay <> cy ->
     (point_in_rectangle A B C D m = true <-> between ax cx mx /\ between ay cy my)).
Proof. exact c41_all. Qed.
Print Assumptions C41_point_in_rectangle.
Definition pt_xy (x y : Z) : point := {| p_lat := fz y; p_lon := fz x; p_elev := MV; p_laf := MV; p_type := Geodetic; p_x := fz 0; p_y := fz 0; p_z := fz 0 |}.
Example C41_example :
  point_in_rectangle (pt_xy 0 0) (pt_xy 0 2) (pt_xy 3 2) (pt_xy 3 0) (pt_xy 1 2) = true /\
  point_in_rectangle (pt_xy 3 0) (pt_xy 3 2) (pt_xy 0 2) (pt_xy 0 0) (pt_xy 1 2) = true /\
  point_in_rectangle (pt_xy 0 0) (pt_xy 0 2) (pt_xy 3 2) (pt_xy 3 0) (pt_xy 1 3) = false.
Proof. repeat split; vm_compute; reflexivity. Qed.

(** C68: get_box throws for Cartesian grids with |y| > 90.001 (Geodetic grids: last clauses of C40) *)
Theorem C68_get_box_cartesian_refuted : exists g, is_grid G0 Cartesian 2 2 [[qz 1000; qz 1000]; [qz 2000; qz 2000]] [[qz 0; qz 1000]; [qz 0; qz 1000]] g /\
  get_box G0 g (fz 1500) (fz 500) = Throw InvalidArgument.
Proof. exact c68_refuted. Qed.
Print Assumptions C68_get_box_cartesian_refuted.
Theorem C68_get_box_geodetic_partial : forall G t nY nX lats lons g la lo, geo_ok G -> is_grid G t nY nX lats lons g -> valid_loc t la ->
  (* Geodetic, or Cartesian with all coordinates that would be accepted as latitudes *)
  (t = Geodetic \/ (valid_loc Geodetic la /\ Forall (Forall (valid_loc Geodetic)) lats)) ->
  exists b, get_box G g (Fin la) (Fin lo) = Ok b.
Proof. exact c68_partial. Qed.
Print Assumptions C68_get_box_geodetic_partial.
