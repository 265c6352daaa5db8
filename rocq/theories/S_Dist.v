(** Specification of distances: planar, straight-line and along the sphere. *)
From Coq Require Import Reals.
From Verif Require Import Base RBase M_Geo S_Geo S_Near.
Local Open Scope Z_scope.

Definition earth : R := 6378137%R.
(** squared distance in the plane *)
Definition plane2 (la1 lo1 la2 lo2 : R) : R := ((lo1 - lo2) ^ 2 + (la1 - la2) ^ 2)%R.
(** position on the unit sphere of a latitude and longitude in degrees *)
Definition rad (d : R) : R := (d * PI / 180)%R.
Definition sx (la lo : R) : R := (cos (rad la) * cos (rad lo))%R.
Definition sy (la lo : R) : R := (cos (rad la) * sin (rad lo))%R.
Definition sz (la : R) : R := sin (rad la).
(** squared straight line through the earth between two locations *)
Definition chord2 (la1 lo1 la2 lo2 : R) : R :=
  (earth ^ 2 * ((sx la1 lo1 - sx la2 lo2) ^ 2 + (sy la1 lo1 - sy la2 lo2) ^ 2 + (sz la1 - sz la2) ^ 2))%R.
(** [d] is the length of the shorter great-circle arc over a chord of squared length [c2]: an arc of angle d/earth
    has a chord of length 2 earth sin(d / (2 earth)) *)
Definition arc_over (c2 d : R) : Prop :=
  (0 <= d <= PI * earth /\ c2 = (2 * earth * sin (d / (2 * earth))) ^ 2)%R.
(** [d] is the distance between two locations for the coordinate type *)
Definition is_distance (t : ctype) (la1 lo1 la2 lo2 d : R) : Prop :=
  match t with
  | Cartesian => (0 <= d /\ d * d = plane2 la1 lo1 la2 lo2)%R
  | Geodetic => arc_over (chord2 la1 lo1 la2 lo2) d
  end.
(** same physical location *)
Definition same_place (t : ctype) (la1 lo1 la2 lo2 : R) : Prop :=
  match t with
  | Cartesian => la1 = la2 /\ lo1 = lo2
  | Geodetic => sx la1 lo1 = sx la2 lo2 /\ sy la1 lo1 = sy la2 lo2 /\ sz la1 = sz la2
  end.
(** S are the [num] of the indexed locations closest to p (all, if there are fewer) *)
Definition are_closest {I} (at_ : I -> xyz -> Prop) (p : xyz) (num : Z) (S : list I) : Prop :=
  NoDup S /\ zlen S <= num /\ (forall i, In i S -> exists q, at_ i q) /\
  (zlen S < num -> forall i q, at_ i q -> In i S) /\
  (forall i j qi qj, In i S -> at_ i qi -> at_ j qj -> ~ In j S -> (sqdist p qi <= sqdist p qj)%Qc).
(** [d] is the largest of the distances [dist i] over S, 0 if S is empty *)
Definition largest_over {I} (S : list I) (dist : I -> R -> Prop) (d : R) : Prop :=
  (forall i x, In i S -> dist i x -> (x <= d)%R) /\
  ((S = [] /\ d = 0%R) \/ exists i, In i S /\ dist i d).
(** distance from location (la, lo) to the indexed location whose coordinates are la', lo' *)
Definition dist_to {I} (coords : I -> Qc -> Qc -> Prop) (t : ctype) (la lo : Qc) (i : I) (d : R) : Prop :=
  exists la' lo', coords i la' lo' /\ is_distance t (qr la) (qr lo) (qr la') (qr lo') d.
Definition grid_coords (lats lons : list (list Qc)) (c : Z * Z) (la lo : Qc) : Prop :=
  get2 lats (fst c) (snd c) = Ok la /\ get2 lons (fst c) (snd c) = Ok lo.
Definition point_coords (las los : list Qc) (i : Z) (la lo : Qc) : Prop := znth las i = Ok la /\ znth los i = Ok lo.
(** the distance(..., num) answer for one output location *)
Definition knn_distance {I} (at_ : I -> xyz -> Prop) (coords : I -> Qc -> Qc -> Prop) (p : xyz) (t : ctype) (la lo : Qc)
  (num : Z) (r : rv) : Prop :=
  exists S d, are_closest at_ p num S /\ r = RF d /\ largest_over S (dist_to coords t la lo) d.
(** [w] is the difference of two longitudes along the parallel, the shorter way round *)
Definition lon_gap (lo1 lo2 w : R) : Prop := (0 <= w <= PI /\ cos w = cos (rad lo1 - rad lo2))%R.
(** approximation: the separation in longitude is shrunk by the cosine of the latitude farther from the equator *)
Definition is_approx (la1 lo1 la2 lo2 d : R) : Prop :=
  (exists w, lon_gap lo1 lo2 w /\ 0 <= d /\
   d * d = earth * earth * ((Rmin (cos (rad la1)) (cos (rad la2)) * w) ^ 2 + (rad la1 - rad la2) ^ 2))%R.
(** comparison of results *)
Definition rv_le (a b : rv) : Prop := exists x y, a = RF x /\ b = RF y /\ (x <= y)%R.
Definition all_le (a b : list rv) : Prop := zlen a = zlen b /\ forall i x y, znth a i = Ok x -> znth b i = Ok y -> rv_le x y.
Definition all_le2 (a b : list (list rv)) : Prop := forall i j x y, get2 a i j = Ok x -> get2 b i j = Ok y -> rv_le x y.
(** [r] is the distance to the nearest of the indexed locations of the plane *)
Definition nearest_dist {I} (coords : I -> Qc -> Qc -> Prop) (la lo : Qc) (r : rv) : Prop :=
  exists d, r = RF d /\ (exists i, dist_to coords Cartesian la lo i d) /\ forall j x, dist_to coords Cartesian la lo j x -> (d <= x)%R.
