(** Model of the geometry classes: KDTree, Point, Points, Grid. *)
From Verif Require Import Base.

(** gridpp::CoordinateType, include/gridpp.h (Geodetic = 0, Cartesian = 1) *)
Inductive ctype := Geodetic | Cartesian.
(** 3D coordinates of a stored point (boost point of three floats, include/gridpp.h:1896).
    Only valid coordinates are ever stored, so the components are finite. *)
Record xyz := mkxyz { px : Qc; py : Qc; pz : Qc }.
(** External code: the float results of the sin/cos conversion at util.cpp:606-612, and the two
    queries of the boost rtree.  A query returns the stored indices; the predicate receives the
    stored point. *)
Record geo := {
  geo_xyz : Qc -> Qc -> xyz;                                    (* lat, lon *)
  rt_query : list xyz -> (xyz -> bool) -> list Z;
  rt_nearest : list xyz -> xyz -> Z -> (xyz -> bool) -> list Z }.

(** is_valid_lat / is_valid_lon, util.cpp:617-624 *)
Definition lat_limit : val := fq (90001 # 1000).
Definition is_valid_lat (lat : val) (t : ctype) : bool :=
  match t with
  | Cartesian => is_valid lat
  | Geodetic => is_valid lat && vleb (vneg lat_limit) lat && vleb lat lat_limit
  end.
Definition is_valid_lon (lon : val) : bool := is_valid lon.
(** convert_coordinates (scalar), util.cpp:595-615 *)
Definition convert_coordinates (G : geo) (lat lon : val) (t : ctype) : res xyz :=
  if negb (is_valid_lat lat t) || negb (is_valid_lon lon) then Throw InvalidArgument
  else match lat, lon, t with
  | Fin la, Fin lo, Cartesian => Ok (mkxyz lo la 0)
  | Fin la, Fin lo, Geodetic => Ok (geo_xyz G la lo)
  | _, _, _ => Throw InvalidArgument
  end.
(** convert_coordinates (vectors), util.cpp:583-593 *)
Definition convert_all (G : geo) (lats lons : vec) (t : ctype) : res (list xyz) :=
  mapM (fun i => lat <- znth lats i ;; lon <- znth lons i ;; convert_coordinates G lat lon t)
       (zrange 0 (zlen lats)).

(** the radicand of calc_straight_distance, kdtree.cpp:192-194 *)
Definition dist2 (p q : xyz) : Qc :=
  ((px p - px q) * (px p - px q) + (py p - py q) * (py p - py q) + (pz p - pz q) * (pz p - pz q))%Qc.
(** [sqrt(d2) <= radius] for d2 >= 0; exact arithmetic, so the square root is eliminated *)
Definition sqrt_le (d2 : Qc) (radius : val) : bool :=
  match radius with
  | Fin r => qleb 0 r && qleb d2 (r * r)%Qc
  | PInf => true
  | _ => false
  end.
(** [sqrt(d2) > 0] *)
Definition sqrt_pos (d2 : Qc) : bool := qltb 0 d2.

(** ** KDTree, kdtree.cpp *)
Record kdtree := { t_lats : vec; t_lons : vec; t_type : ctype; t_pts : list xyz }.
(** KDTree(lats, lons, type), kdtree.cpp:6-16 *)
Definition mk_tree (G : geo) (lats lons : vec) (t : ctype) : res kdtree :=
  pts <- convert_all G lats lons t ;;
  Ok {| t_lats := lats; t_lons := lons; t_type := t; t_pts := pts |}.
(** KDTree(type), include/gridpp.h: an empty tree, Geodetic unless given *)
Definition empty_tree (t : ctype) : kdtree := {| t_lats := []; t_lons := []; t_type := t; t_pts := [] |}.
(** KDTree::size, kdtree.cpp:216-218 *)
Definition tree_size (t : kdtree) : Z := zlen (t_lats t).
(** the box of kdtree.cpp:46 and the boost predicate [within] (which excludes the boundary) *)
Definition in_box (p : xyz) (radius : val) (q : xyz) : bool :=
  let inside (c v : Qc) := vltb (vsub (Fin c) radius) (Fin v) && vltb (Fin v) (vadd (Fin c) radius) in
  inside (px p) (px q) && inside (py p) (py q) && inside (pz p) (pz q).
(** within_radius::operator(), kdtree.cpp:247-260 *)
Definition within_radius (p : xyz) (radius : val) (include_match : bool) (v : xyz) : bool :=
  if include_match then sqrt_le (dist2 v p) radius
  else sqrt_le (dist2 v p) radius && sqrt_pos (dist2 v p).
(** KDTree::get_neighbours, kdtree.cpp:39-80 *)
Definition get_neighbours (G : geo) (t : kdtree) (lat lon radius : val) (include_match : bool) : res (list Z) :=
  p <- convert_coordinates G lat lon (t_type t) ;;
  Ok (rt_query G (t_pts t) (fun q => in_box p radius q && within_radius p radius include_match q)).
(** KDTree::get_num_neighbours, kdtree.cpp:18-21 *)
Definition get_num_neighbours (G : geo) (t : kdtree) (lat lon radius : val) (include_match : bool) : res Z :=
  I <- get_neighbours G t lat lon radius include_match ;; Ok (zlen I).
(** KDTree::get_neighbours_with_distance, kdtree.cpp:23-37 *)
Definition get_neighbours_with_distance (E : ext) (G : geo) (t : kdtree) (lat lon radius : val) (include_match : bool)
  : res (list Z * vec) :=
  p <- convert_coordinates G lat lon (t_type t) ;;
  I <- get_neighbours G t lat lon radius include_match ;;
  d <- mapM (fun i => la <- znth (t_lats t) i ;; lo <- znth (t_lons t) i ;;
                      q <- convert_coordinates G la lo (t_type t) ;;
                      Ok (vsqrt E (Fin (dist2 p q)))) I ;;
  Ok (I, d).
(** is_not_equal::operator(), kdtree.cpp:265-270 *)
Definition is_not_equal (p q : xyz) : bool :=
  negb (qeqb (px p) (px q)) || negb (qeqb (py p) (py q)) || negb (qeqb (pz p) (pz q)).
(** KDTree::get_closest_neighbours, kdtree.cpp:82-103; a negative [num] makes [reserve] throw *)
Definition get_closest_neighbours (G : geo) (t : kdtree) (lat lon : val) (num : Z) (include_match : bool) : res (list Z) :=
  p <- convert_coordinates G lat lon (t_type t) ;;
  let r := rt_nearest G (t_pts t) p num (fun q => if include_match then true else is_not_equal p q) in
  if num <? 0 then Throw LengthError else Ok r.
(** KDTree::get_nearest_neighbour, kdtree.cpp:104-106 *)
Definition tree_nearest (G : geo) (t : kdtree) (lat lon : val) (include_match : bool) : res Z :=
  I <- get_closest_neighbours G t lat lon 1 include_match ;; znth I 0.

(** ** Point, point.cpp *)
Record point := { p_lat : val; p_lon : val; p_elev : val; p_laf : val; p_type : ctype;
                  p_x : val; p_y : val; p_z : val }.
(** Point(lat, lon, elev, laf, type), point.cpp:5-23 *)
Definition mk_point (G : geo) (lat lon elev laf : val) (t : ctype) : res point :=
  match t with
  | Geodetic =>
      p <- convert_coordinates G lat lon Geodetic ;;
      Ok {| p_lat := lat; p_lon := lon; p_elev := elev; p_laf := laf; p_type := t;
            p_x := Fin (px p); p_y := Fin (py p); p_z := Fin (pz p) |}
  | Cartesian =>
      Ok {| p_lat := lat; p_lon := lon; p_elev := elev; p_laf := laf; p_type := t;
            p_x := lat; p_y := lon; p_z := fz 0 |}
  end.
(** the radicand of calc_straight_distance on two Points, kdtree.cpp:189-194 *)
Definition pdist2 (a b : point) : val :=
  let sq x y := vmul (vsub x y) (vsub x y) in
  vadd (vadd (sq (p_x a) (p_x b)) (sq (p_y a) (p_y b))) (sq (p_z a) (p_z b)).

(** ** Points, points.cpp *)
Record points := { s_lats : vec; s_lons : vec; s_elevs : vec; s_lafs : vec; s_tree : kdtree }.
(** Points(lats, lons, elevs, lafs, type), points.cpp:9-31 *)
Definition mk_points (G : geo) (lats lons elevs lafs : vec) (t : ctype) : res points :=
  let N := zlen lats in
  if negb (zlen lons =? N) then Throw InvalidArgument
  else if negb (zlen elevs =? 0) && negb (zlen elevs =? N) then Throw InvalidArgument
  else if negb (zlen lafs =? 0) && negb (zlen lafs =? N) then Throw InvalidArgument
  else
    tree <- mk_tree G lats lons t ;;
    Ok {| s_lats := lats; s_lons := lons;
          s_elevs := if zlen elevs =? N then elevs else init1 N MV;
          s_lafs := if zlen lafs =? N then lafs else init1 N MV;
          s_tree := tree |}.
(** Points(tree, elevs, lafs), points.cpp:32-38 *)
Definition points_of_tree (tree : kdtree) (elevs lafs : vec) : points :=
  {| s_lats := t_lats tree; s_lons := t_lons tree; s_elevs := elevs; s_lafs := lafs; s_tree := tree |}.
(** Points::size, points.cpp:74-76 *)
Definition points_size (P : points) : Z := zlen (s_lats P).
(** Points::get_coordinate_type, points.cpp:125-127 *)
Definition points_type (P : points) : ctype := t_type (s_tree P).
(** Points::get_nearest_neighbour, points.cpp:55-61 *)
Definition points_nearest (G : geo) (P : points) (lat lon : val) (include_match : bool) : res Z :=
  I <- get_closest_neighbours G (s_tree P) lat lon 1 include_match ;;
  if 0 <? zlen I then znth I 0 else Ok (-1).
(** Points(const Points&), points.cpp:118-124: the type is read from the new object's own tree,
    which is the default-constructed (Geodetic) one *)
Definition points_copy (G : geo) (P : points) : res points :=
  let fresh := empty_tree Geodetic in
  tree <- mk_tree G (s_lats P) (s_lons P) (t_type fresh) ;;
  Ok {| s_lats := s_lats P; s_lons := s_lons P; s_elevs := s_elevs P; s_lafs := s_lafs P; s_tree := tree |}.
(** Points::operator=, points.cpp:110-117: the argument is taken by value (copied), then swapped in *)
Definition points_assign (G : geo) (P : points) : res points := points_copy G P.
(** Points::get_point, points.cpp:128-130 *)
Definition points_get (P : points) (i : Z) : res point :=
  la <- znth (s_lats P) i ;; lo <- znth (s_lons P) i ;; el <- znth (s_elevs P) i ;; lf <- znth (s_lafs P) i ;;
  q <- znth (t_pts (s_tree P)) i ;;
  Ok {| p_lat := la; p_lon := lo; p_elev := el; p_laf := lf; p_type := points_type P;
        p_x := Fin (px q); p_y := Fin (py q); p_z := Fin (pz q) |}.
(** Points::subset, points.cpp:131-151 (an index is compared unsigned, so a negative one throws too) *)
Definition points_subset (G : geo) (P : points) (I : list Z) : res points :=
  rows <- mapM (fun i =>
     if (i <? 0) || (zlen (s_lats P) <=? i) then Throw InvalidArgument
     else la <- znth (s_lats P) i ;; lo <- znth (s_lons P) i ;;
          el <- znth (s_elevs P) i ;; lf <- znth (s_lafs P) i ;; Ok (la, lo, el, lf)) I ;;
  mk_points G (map (fun r => fst (fst (fst r))) rows) (map (fun r => snd (fst (fst r))) rows)
              (map (fun r => snd (fst r)) rows) (map snd rows) Geodetic.

(** ** Grid, grid.cpp *)
Record grid := { g_lats : vec2; g_lons : vec2; g_elevs : vec2; g_lafs : vec2; g_X : Z; g_tree : kdtree }.
(** Grid(lats, lons, elevs, lafs, type), grid.cpp:12-55.  The loop filling lats0/lons0 at [count++]
    is written as the concatenation of the rows it reads. *)
Definition mk_grid (G : geo) (lats lons elevs lafs : vec2) (t : ctype) : res grid :=
  if zlen lats =? 0 then
    Ok {| g_lats := []; g_lons := []; g_elevs := []; g_lafs := []; g_X := 0; g_tree := empty_tree Geodetic |}
  else
    r0 <- znth lats 0 ;;
    let Y := zlen lats in
    let X := zlen r0 in
    la <- tab2 Y X (fun i j => get2 lats i j) ;;
    lo <- tab2 Y X (fun i j => get2 lons i j) ;;
    tree <- mk_tree G (concat la) (concat lo) t ;;
    let pad (v : vec2) : res vec2 :=
      if negb (zlen v =? Y) then Ok (init2 Y X MV)
      else v0 <- znth v 0 ;; Ok (if negb (zlen v0 =? X) then init2 Y X MV else v) in
    e <- pad elevs ;;
    f <- pad lafs ;;
    Ok {| g_lats := lats; g_lons := lons; g_elevs := e; g_lafs := f; g_X := X; g_tree := tree |}.
(** Grid::get_indices(int), grid.cpp:108-114 *)
Definition get_indices (g : grid) (index : Z) : res (Z * Z) :=
  if g_X g =? 0 then UB else Ok (Z.quot index (g_X g), Z.rem index (g_X g)).
(** Grid::get_indices(ivec), grid.cpp:115-121 *)
Definition get_indices_all (g : grid) (I : list Z) : res (list (Z * Z)) := mapM (get_indices g) I.
(** Grid::size, grid.cpp:122-130 *)
Definition grid_size (g : grid) : res (Z * Z) :=
  if 0 <? tree_size (g_tree g) then
    '(y, x) <- get_indices g (tree_size (g_tree g) - 1) ;; Ok (y + 1, x + 1)
  else Ok (0, 0).
(** Grid::get_coordinate_type, grid.cpp:146-148 *)
Definition grid_type (g : grid) : ctype := t_type (g_tree g).
(** Grid::get_neighbours, grid.cpp:67-70 *)
Definition grid_neighbours (G : geo) (g : grid) (lat lon radius : val) (include_match : bool) : res (list (Z * Z)) :=
  I <- get_neighbours G (g_tree g) lat lon radius include_match ;; get_indices_all g I.
(** Grid::get_closest_neighbours, grid.cpp:72-75 *)
Definition grid_closest (G : geo) (g : grid) (lat lon : val) (num : Z) (include_match : bool) : res (list (Z * Z)) :=
  I <- get_closest_neighbours G (g_tree g) lat lon num include_match ;; get_indices_all g I.
(** Grid::get_nearest_neighbour, grid.cpp:76-82; [None] is the empty ivec *)
Definition grid_nearest (G : geo) (g : grid) (lat lon : val) (include_match : bool) : res (option (Z * Z)) :=
  I <- grid_closest G g lat lon 1 include_match ;;
  if 0 <? zlen I then c <- znth I 0 ;; Ok (Some c) else Ok None.
(** Grid::to_points, grid.cpp:131-145 *)
Definition to_points (g : grid) : res points :=
  '(Y, X) <- grid_size g ;;
  e <- tab2 Y X (fun y x => get2 (g_elevs g) y x) ;;
  f <- tab2 Y X (fun y x => get2 (g_lafs g) y x) ;;
  Ok (points_of_tree (g_tree g) (concat e) (concat f)).
(** Grid::get_point, grid.cpp:232-235 *)
Definition grid_get (g : grid) (y x : Z) : res point :=
  let index := y * g_X g + x in
  la <- get2 (g_lats g) y x ;; lo <- get2 (g_lons g) y x ;;
  el <- get2 (g_elevs g) y x ;; lf <- get2 (g_lafs g) y x ;;
  q <- znth (t_pts (g_tree g)) index ;;
  Ok {| p_lat := la; p_lon := lo; p_elev := el; p_laf := lf; p_type := grid_type g;
        p_x := Fin (px q); p_y := Fin (py q); p_z := Fin (pz q) |}.

(** vect2d and point_in_rectangle, util.cpp:562-581 *)
Definition side (P Q m : point) : val :=
  let lon := vsub (p_lon Q) (p_lon P) in
  let lat := vmul (fz (-1)) (vsub (p_lat Q) (p_lat P)) in
  let C := vmul (fz (-1)) (vadd (vmul lat (p_lon P)) (vmul lon (p_lat P))) in
  vadd (vadd (vmul lat (p_lon m)) (vmul lon (p_lat m))) C.
Definition point_in_rectangle (A B C D m : point) : bool :=
  let D1 := side A B m in
  let D2 := side A D m in
  let D3 := side B C m in
  let D4 := side C D m in
  let opt1 := vleb D1 (fz 0) && vleb D4 (fz 0) && vleb (fz 0) D2 && vleb D3 (fz 0) in
  let opt2 := vleb (fz 0) D1 && vleb (fz 0) D4 && vleb D2 (fz 0) && vleb (fz 0) D3 in
  opt1 || opt2.

(** Grid::get_box, grid.cpp:149-231.  [Some (Y1, X1, Y2, X2)] when it returns true; the values
    left in the output arguments on failure are not modelled. *)
Fixpoint box_loop (G : geo) (g : grid) (lat lon : val) (Y X nY nX : Z) (its : list Z) : res (option (Z * Z)) :=
  match its with
  | [] => Ok None
  | it :: rest =>
      let xdir := -1 + 2 * (it mod 2) in
      let ydir := -1 + 2 * (if it <? 2 then 1 else 0) in
      if (Y =? 0) && (ydir =? -1) then box_loop G g lat lon Y X nY nX rest
      else if (Y =? nY - 1) && (ydir =? 1) then box_loop G g lat lon Y X nY nX rest
      else if (X =? 0) && (xdir =? -1) then box_loop G g lat lon Y X nY nX rest
      else if (X =? nX - 1) && (xdir =? 1) then box_loop G g lat lon Y X nY nX rest
      else
        let corner y x := la <- get2 (g_lats g) y x ;; lo <- get2 (g_lons g) y x ;; mk_point G la lo MV MV Geodetic in
        A <- corner Y X ;;
        B <- corner (Y + ydir) X ;;
        C <- corner (Y + ydir) (X + xdir) ;;
        D <- corner Y (X + xdir) ;;
        curr <- mk_point G lat lon MV MV Geodetic ;;
        if point_in_rectangle A B C D curr then Ok (Some (ydir, xdir))
        else box_loop G g lat lon Y X nY nX rest
  end.
Definition get_box (G : geo) (g : grid) (lat lon : val) : res (option (Z * Z * Z * Z)) :=
  nn <- grid_nearest G g lat lon true ;;
  match nn with
  | None => Ok None
  | Some (Y, X) =>
      '(nY, nX) <- grid_size g ;;
      if (nX <=? 1) || (nY <=? 1) then Ok None
      else
        d <- box_loop G g lat lon Y X nY nX [0; 1; 2; 3] ;;
        match d with
        | None => Ok None
        | Some (ydir, xdir) =>
            let '(X1, X2) := if xdir =? 1 then (X, X + 1) else (X - 1, X) in
            let '(Y1, Y2) := if ydir =? 1 then (Y, Y + 1) else (Y - 1, Y) in
            Ok (Some (Y1, X1, Y2, X2))
        end
  end.
(** Points::get_in_domain_indices, points.cpp:77-92 *)
Definition in_domain_indices (G : geo) (P : points) (g : grid) : res (list Z) :=
  _ <- grid_size g ;;
  flags <- mapM (fun s => la <- znth (s_lats P) s ;; lo <- znth (s_lons P) s ;;
                          b <- get_box G g la lo ;; Ok (s, match b with Some _ => true | None => false end))
                (zrange 0 (points_size P)) ;;
  Ok (map fst (filter snd flags)).
(** Points::get_in_domain, points.cpp:93-109 *)
Definition in_domain (G : geo) (P : points) (g : grid) : res points :=
  I <- in_domain_indices G P g ;;
  rows <- mapM (fun i => la <- znth (s_lats P) i ;; lo <- znth (s_lons P) i ;;
          el <- znth (s_elevs P) i ;; lf <- znth (s_lafs P) i ;; Ok (la, lo, el, lf)) I ;;
  mk_points G (map (fun r => fst (fst (fst r))) rows) (map (fun r => snd (fst (fst r))) rows)
              (map (fun r => snd (fst r)) rows) (map snd rows) Geodetic.
(** compatible_size overloads taking a Grid or Points, util.cpp:427-438 *)
Definition compat_grid2 {A} (g : grid) (v : list (list A)) : res bool :=
  if zlen v =? 0 then Ok true else
  '(Y, X) <- grid_size g ;;
  if negb (Y =? zlen v) then Ok false else v0 <- znth v 0 ;; Ok (X =? zlen v0).
Definition compat_grid3 {A} (g : grid) (v : list (list (list A))) : res bool :=
  if zlen v =? 0 then Ok true else
  v0 <- znth v 0 ;;
  if zlen v0 =? 0 then Ok true else
  '(Y, X) <- grid_size g ;;
  if negb (Y =? zlen v0) then Ok false else v00 <- znth v0 0 ;; Ok (X =? zlen v00).
Definition compat_points2 {A} (P : points) (v : list (list A)) : res bool :=
  if zlen v =? 0 then Ok true else v0 <- znth v 0 ;; Ok (points_size P =? zlen v0).
Definition compat_points1 {A} (P : points) (v : list A) : bool := points_size P =? zlen v.
