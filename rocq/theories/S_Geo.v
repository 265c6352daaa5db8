(** Specification vocabulary for the geometry classes, independent of their implementation. *)
From Verif Require Import Base M_Geo.

(** ** Contract of the external rtree (boost) *)
Definition sel (pts : list xyz) (f : xyz -> bool) (i : Z) : Prop := exists q, znth pts i = Ok q /\ f q = true.
Record geo_ok (G : geo) : Prop := {
  (* a query returns each stored index satisfying the predicate exactly once, in any order *)
  ok_q_nodup : forall pts f, NoDup (rt_query G pts f);
  ok_q_in : forall pts f i, In i (rt_query G pts f) <-> sel pts f i;
  (* a nearest query returns the k closest of them (all, if there are fewer), in any order *)
  ok_n_nodup : forall pts p k f, 1 <= k -> NoDup (rt_nearest G pts p k f);
  ok_n_sel : forall pts p k f i, 1 <= k -> In i (rt_nearest G pts p k f) -> sel pts f i;
  ok_n_le : forall pts p k f, 1 <= k -> zlen (rt_nearest G pts p k f) <= k;
  ok_n_full : forall pts p k f i, 1 <= k -> zlen (rt_nearest G pts p k f) < k -> sel pts f i -> In i (rt_nearest G pts p k f);
  ok_n_close : forall pts p k f i j qi qj, 1 <= k -> In i (rt_nearest G pts p k f) ->
     sel pts f j -> ~ In j (rt_nearest G pts p k f) ->
     znth pts i = Ok qi -> znth pts j = Ok qj -> (dist2 p qi <= dist2 p qj)%Qc }.

(** an instance used by the examples: linear scan, insertion sort by distance, flat earth *)
Definition rt0_query (pts : list xyz) (f : xyz -> bool) : list Z :=
  filter (fun i => match znth pts i with Ok q => f q | _ => false end) (zrange 0 (zlen pts)).
Definition rt0_key (pts : list xyz) (p : xyz) (i : Z) : Qc :=
  match znth pts i with Ok q => dist2 p q | _ => 0%Qc end.
Fixpoint rt0_insert (key : Z -> Qc) (i : Z) (l : list Z) : list Z :=
  match l with [] => [i] | j :: t => if qleb (key i) (key j) then i :: j :: t else j :: rt0_insert key i t end.
Definition rt0_nearest (pts : list xyz) (p : xyz) (k : Z) (f : xyz -> bool) : list Z :=
  firstn (Z.to_nat k) (fold_right (rt0_insert (rt0_key pts p)) [] (rt0_query pts f)).
Definition G0 : geo := {| geo_xyz := fun la lo => mkxyz lo la 0; rt_query := rt0_query; rt_nearest := rt0_nearest |}.

(** ** Positions *)
(** 3D position of a location *)
Definition position (G : geo) (t : ctype) (la lo : Qc) : xyz :=
  match t with Cartesian => mkxyz lo la 0 | Geodetic => geo_xyz G la lo end.
(** locations accepted by the library: any for Cartesian, |lat| <= 90.001 for Geodetic *)
Definition valid_loc (t : ctype) (la : Qc) : Prop :=
  match t with Cartesian => True | Geodetic => (- Q2Qc (90001 # 1000) <= la /\ la <= Q2Qc (90001 # 1000))%Qc end.
(** squared straight-line distance *)
Definition sqdist (p q : xyz) : Qc :=
  let sq a := (a * a)%Qc in (sq (px q - px p) + sq (py q - py p) + sq (pz q - pz p))%Qc.
(** every coordinate of [q] strictly closer than [r] to that of [p] *)
Definition near_axes (p q : xyz) (r : Qc) : Prop :=
  let c (a b : Qc) := (a - r < b /\ b < a + r)%Qc in c (px p) (px q) /\ c (py p) (py q) /\ c (pz p) (pz q).
(** points of a finite coordinate list *)
Definition is_tree (G : geo) (t : ctype) (las los : list Qc) (T : kdtree) : Prop :=
  mk_tree G (map Fin las) (map Fin los) t = Ok T.
(** [i] is one of the points, [q] its position *)
Definition point_at (G : geo) (t : ctype) (las los : list Qc) (i : Z) (q : xyz) : Prop :=
  exists la lo, znth las i = Ok la /\ znth los i = Ok lo /\ q = position G t la lo.

(** ** Planar geometry (x = lon, y = lat) *)
(** [m] = A + s (B - A) + u (D - A) with s, u in [0, 1] *)
Definition in_parallelogram (ax ay bx by_ dx dy mx my : Qc) : Prop :=
  exists s u : Qc, (0 <= s /\ s <= 1 /\ 0 <= u /\ u <= 1 /\
    mx = ax + s * (bx - ax) + u * (dx - ax) /\ my = ay + s * (by_ - ay) + u * (dy - ay))%Qc.
(** a Point with the given plane coordinates *)
Definition at_xy (p : point) (x y : Qc) : Prop := p_lon p = Fin x /\ p_lat p = Fin y.

(** ** Grids *)
Notation mFin := (map (map Fin)).
(** a grid of Y rows and X columns with the given coordinates (any elevation and land-fraction fields,
    or none) *)
Definition is_grid (G : geo) (t : ctype) (Y X : Z) (lats lons : list (list Qc)) (g : grid) : Prop :=
  0 < Y /\ 0 < X /\ rect Y X lats /\ rect Y X lons /\
  exists elevs lafs, (elevs = [] \/ rect Y X elevs) /\ (lafs = [] \/ rect Y X lafs) /\
  mk_grid G (mFin lats) (mFin lons) elevs lafs t = Ok g.
(** position of the grid point in row y and column x *)
Definition grid_at (G : geo) (t : ctype) (lats lons : list (list Qc)) (y x : Z) (q : xyz) : Prop :=
  exists la lo, get2 lats y x = Ok la /\ get2 lons y x = Ok lo /\ q = position G t la lo.

(** a Points object with the given coordinates (any elevations and land fractions, or none) *)
Definition is_points (G : geo) (t : ctype) (las los : list Qc) (P : points) : Prop :=
  exists elevs lafs, mk_points G (map Fin las) (map Fin los) elevs lafs t = Ok P.

(** ** nearest location (include_match = false leaves out coinciding locations) *)
Definition qualifies (p : xyz) (inc : bool) (q : xyz) : Prop := inc = true \/ sqdist p q <> 0%Qc.
Definition closest {I} (at_ : I -> xyz -> Prop) (p : xyz) (inc : bool) (i : I) : Prop :=
  exists q, at_ i q /\ qualifies p inc q /\
  forall j q', at_ j q' -> qualifies p inc q' -> (sqdist p q <= sqdist p q')%Qc.
Definition none_qualifies {I} (at_ : I -> xyz -> Prop) (p : xyz) (inc : bool) : Prop :=
  forall i q, at_ i q -> ~ qualifies p inc q.
Definition grid_at' G t lats lons (c : Z * Z) (q : xyz) : Prop := grid_at G t lats lons (fst c) (snd c) q.
(** [m] lies on the inner side of (or on) the four edges of the polygon A B C D, whichever way it is drawn *)
Definition cross (ox oy px_ py_ qx qy : Qc) : Qc := ((px_ - ox) * (qy - oy) - (py_ - oy) * (qx - ox))%Qc.
Definition inside_edges (ax ay bx by_ cx cy dx dy mx my : Qc) : Prop :=
  let e px_ py_ qx qy := cross px_ py_ qx qy mx my in
  (0 <= e ax ay bx by_ /\ 0 <= e bx by_ cx cy /\ 0 <= e cx cy dx dy /\ 0 <= e dx dy ax ay)%Qc \/
  (e ax ay bx by_ <= 0 /\ e bx by_ cx cy <= 0 /\ e cx cy dx dy <= 0 /\ e dx dy ax ay <= 0)%Qc.
(** the location (la, lo) is inside the grid cell spanned by rows y, y' and columns x, x' *)
Definition in_cell (lats lons : list (list Qc)) (y x y' x' : Z) (la lo : Qc) : Prop :=
  exists a1 o1 a2 o2 a3 o3 a4 o4,
    get2 lats y x = Ok a1 /\ get2 lons y x = Ok o1 /\ get2 lats y' x = Ok a2 /\ get2 lons y' x = Ok o2 /\
    get2 lats y' x' = Ok a3 /\ get2 lons y' x' = Ok o3 /\ get2 lats y x' = Ok a4 /\ get2 lons y x' = Ok o4 /\
    inside_edges o1 a1 o2 a2 o3 a3 o4 a4 lo la.
(** between two bounds given in either order *)
Definition between (a b x : Qc) : Prop := (a <= x /\ x <= b \/ b <= x /\ x <= a)%Qc.
