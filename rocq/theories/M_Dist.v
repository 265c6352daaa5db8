(** Model of the distance functions of KDTree (src/api/kdtree.cpp:107-200) and of distance.cpp. *)
From Coq Require Import Reals.
From Verif Require Import Base RBase M_Geo M_Near.
Local Open Scope Z_scope.

(** cos, sin and acos of the C library: NaN outside the domain *)
Definition rcos (a : rv) : rv := match a with RF x => RF (cos x) | _ => RNaN end.
Definition rsin (a : rv) : rv := match a with RF x => RF (sin x) | _ => RNaN end.
Definition racos (a : rv) : rv :=
  match a with RF x => if Rltb x (-1) || Rltb 1 x then RNaN else RF (acos x) | _ => RNaN end.
(** fmod(a, b) for a >= 0, b > 0: a minus the largest multiple of b not above a *)
Definition rfmod (a : rv) (b : R) : rv :=
  match a with RF x => RF (x - b * IZR (Int_part (x / b)))%R | _ => RNaN end.
(** gridpp::radius_earth, include/gridpp.h:55 and kdtree.cpp:125 *)
Definition radius_earth : R := 6378137%R.
(** KDTree::deg2rad, kdtree.cpp:195-197; the rounding of the result to float is not modelled *)
Definition deg2rad (deg : rv) : rv := rdiv (rmul deg (RF PI)) (rz 180).
(** KDTree::calc_distance(lat1, lon1, lat2, lon2, type), kdtree.cpp:107-133 *)
Definition plane_distance (lat1 lon1 lat2 lon2 : rv) : rv :=
  let dx := rsub lon1 lon2 in
  let dy := rsub lat1 lat2 in
  rsqrt (radd (rmul dx dx) (rmul dy dy)).
Definition calc_distance (lat1 lon1 lat2 lon2 : rv) (t : ctype) : rv :=
  match t with
  | Cartesian => plane_distance lat1 lon1 lat2 lon2
  | Geodetic =>
      if reqb lat1 lat2 && reqb lon1 lon2 then rz 0 else
      let lat1r := deg2rad lat1 in
      let lat2r := deg2rad lat2 in
      let lon1r := deg2rad lon1 in
      let lon2r := deg2rad lon2 in
      let ratio := radd (radd (rmul (rmul (rmul (rcos lat1r) (rcos lon1r)) (rcos lat2r)) (rcos lon2r))
                              (rmul (rmul (rmul (rcos lat1r) (rsin lon1r)) (rcos lat2r)) (rsin lon2r)))
                        (rmul (rsin lat1r) (rsin lat2r)) in
      rmul (racos ratio) (RF radius_earth)
  end.
(** KDTree::calc_distance_fast, kdtree.cpp:134-182 *)
Definition calc_distance_fast (lat1 lon1 lat2 lon2 : rv) (t : ctype) : rv :=
  match t with
  | Cartesian => plane_distance lat1 lon1 lat2 lon2
  | Geodetic =>
      let lat1r := deg2rad lat1 in
      let lat2r := deg2rad lat2 in
      let lon1r := deg2rad lon1 in
      let lon2r := deg2rad lon2 in
      let dlon0 := rfmod (rabs (rsub lon1r lon2r)) (2 * PI) in
      let dlon := if rltb (RF PI) dlon0 then rsub (RF (2 * PI)) dlon0 else dlon0 in
      let max_lat := if rltb (rabs lat1r) (rabs lat2r) then lat2r else lat1r in
      let dx2 := rmul (rmul (rmul (rcos max_lat) (rcos max_lat)) dlon) dlon in
      let dy2 := rmul (rsub lat1r lat2r) (rsub lat1r lat2r) in
      rmul (RF radius_earth) (rsqrt (radd dx2 dy2))
  end.
Definition ctype_eqb (a b : ctype) : bool :=
  match a, b with Geodetic, Geodetic | Cartesian, Cartesian => true | _, _ => false end.
(** KDTree::calc_distance(Point, Point), kdtree.cpp:183-188 *)
Definition calc_distance_points (p1 p2 : point) : res rv :=
  if negb (ctype_eqb (p_type p1) (p_type p2)) then Throw RuntimeError
  else Ok (calc_distance (v2r (p_lat p1)) (v2r (p_lon p1)) (v2r (p_lat p2)) (v2r (p_lon p2)) (p_type p1)).
(** KDTree::calc_straight_distance, kdtree.cpp:189-194 *)
Definition calc_straight_distance (x0 y0 z0 x1 y1 z1 : rv) : rv :=
  let sq a b := rmul (rsub a b) (rsub a b) in rsqrt (radd (radd (sq x0 x1) (sq y0 y1)) (sq z0 z1)).

(** the loop keeping the largest distance, distance.cpp:21-28, 49-56, 83-89, 110-116 *)
Definition max_dist (ds : list rv) : rv := fold_left (fun m d => if rltb m d then d else m) ds (rz 0).
(** distance(Grid, Points, num), distance.cpp:6-32 *)
Definition distance_gp (G : geo) (g : grid) (P : points) (num : Z) : res (list rv) :=
  if negb (ctype_eqb (grid_type g) (points_type P)) then Throw InvalidArgument else
  let n := points_size P in
  omp (for1 n (init1 n (rz 0)) (fun i =>
    '(lat, lon) <- pt_loc P i ;;
    I <- grid_closest G g lat lon num true ;;
    ds <- mapM (fun c : Z * Z => '(ila, ilo) <- out_loc g (fst c) (snd c) ;;
                  Ok (calc_distance (v2r lat) (v2r lon) (v2r ila) (v2r ilo) (grid_type g))) I ;;
    Ok (max_dist ds))).
(** distance(Grid, Grid, num), distance.cpp:34-63 *)
Definition distance_gg (G : geo) (ig og : grid) (num : Z) : res (list (list rv)) :=
  if negb (ctype_eqb (grid_type ig) (grid_type og)) then Throw InvalidArgument else
  '(Y, X) <- grid_size og ;;
  omp (for2 Y X (init2 Y X (rz 0)) (fun i j =>
    '(lat, lon) <- out_loc og i j ;;
    I <- grid_closest G ig lat lon num true ;;
    ds <- mapM (fun c : Z * Z => '(ila, ilo) <- out_loc ig (fst c) (snd c) ;;
                  Ok (calc_distance (v2r ila) (v2r ilo) (v2r lat) (v2r lon) (grid_type ig))) I ;;
    Ok (max_dist ds))).
(** distance(Points, Grid, num), distance.cpp:65-93 *)
Definition distance_pg (G : geo) (P : points) (g : grid) (num : Z) : res (list (list rv)) :=
  if negb (ctype_eqb (points_type P) (grid_type g)) then Throw InvalidArgument else
  '(Y, X) <- grid_size g ;;
  omp (for2 Y X (init2 Y X (rz 0)) (fun i j =>
    '(lat, lon) <- out_loc g i j ;;
    I <- get_closest_neighbours G (s_tree P) lat lon num true ;;
    ds <- mapM (fun k : Z => '(ila, ilo) <- pt_loc P k ;;
                  Ok (calc_distance (v2r ila) (v2r ilo) (v2r lat) (v2r lon) (points_type P))) I ;;
    Ok (max_dist ds))).
(** distance(Points, Points, num), distance.cpp:95-120 *)
Definition distance_pp (G : geo) (ip op : points) (num : Z) : res (list rv) :=
  if negb (ctype_eqb (points_type ip) (points_type op)) then Throw InvalidArgument else
  let n := points_size op in
  omp (for1 n (init1 n (rz 0)) (fun i =>
    '(lat, lon) <- pt_loc op i ;;
    I <- get_closest_neighbours G (s_tree ip) lat lon num true ;;
    ds <- mapM (fun k : Z => '(ila, ilo) <- pt_loc ip k ;;
                  Ok (calc_distance (v2r lat) (v2r lon) (v2r ila) (v2r ilo) (points_type ip))) I ;;
    Ok (max_dist ds))).
