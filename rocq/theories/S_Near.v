(** Specification vocabulary for downscaling: fields given by a rule at every output location. *)
From Verif Require Import Base M_Geo S_Stat S_Neigh S_Geo.

(** the output field holds at every grid point what the rule [w] gives for its location *)
Definition on_grid {A} (lats lons : list (list Qc)) (w : Qc -> Qc -> res A) (out : list (list A)) : Prop :=
  forall i j la lo, get2 lats i j = Ok la -> get2 lons i j = Ok lo -> exists x, w la lo = Ok x /\ get2 out i j = Ok x.
Definition on_points {A} (las los : list Qc) (w : Qc -> Qc -> res A) (out : list A) : Prop :=
  zlen out = zlen las /\
  forall i la lo, znth las i = Ok la -> znth los i = Ok lo -> exists x, w la lo = Ok x /\ znth out i = Ok x.
(** every latitude acceptable for coordinate type t *)
Definition valid_all (t : ctype) (las : list Qc) : Prop := Forall (valid_loc t) las.
Definition valid_all2 (t : ctype) (lats : list (list Qc)) : Prop := Forall (Forall (valid_loc t)) lats.
(** value of a field at a cell *)
Definition val_at {A} (v : list (list A)) (c : Z * Z) : res A := get2 v (fst c) (snd c).
(** [q] is found by a radius search around [p]: strictly inside the axis-parallel box and not farther than the radius
    (the box is what makes points exactly at the radius along an axis invisible, see C36); an infinite radius finds
    everything, a missing one nothing *)
Definition in_circle (p q : xyz) (radius : val) : Prop :=
  match radius with
  | Fin r => near_axes p q r /\ (sqdist p q <= r * r)%Qc
  | PInf => True
  | _ => False
  end.
(** the values whose index satisfies the test, in input order *)
Fixpoint pick_from {A} (k : Z) (test : Z -> bool) (v : list A) : list A :=
  match v with [] => [] | a :: t => if test k then a :: pick_from (k + 1) test t else pick_from (k + 1) test t end.
Definition pick {A} (test : Z -> bool) (v : list A) : list A := pick_from 0 test v.
Definition zz_eqb (a b : Z * Z) : bool := (fst a =? fst b) && (snd a =? snd b).
(** sum of the finite entries *)
Fixpoint vsum_finite (l : vec) : Qc := match l with [] => 0%Qc | Fin q :: t => (q + vsum_finite t)%Qc | _ :: t => vsum_finite t end.
(** elevation test of doping: a limit is given and the absolute elevation difference is known to exceed it *)
Definition elev_excluded (max_diff pe ge : val) : Prop :=
  exists m, max_diff = Fin m /\ vltb (Fin m) (vabs (vsub pe ge)) = true.
(** last element of a sequence of writers: cell (y, x) is left alone by all i in [0, n), or i is the last to reach it *)
Definition untouched (n : Z) (reach : Z -> Z -> Z -> Prop) (y x : Z) : Prop := forall i, 0 <= i < n -> ~ reach i y x.
Definition last_writer (n : Z) (reach : Z -> Z -> Z -> Prop) (y x i : Z) : Prop :=
  0 <= i < n /\ reach i y x /\ forall j, i < j < n -> ~ reach j y x.

(** ** fill_missing *)
Definition known (line : Z -> val) (i : Z) : Prop := exists q, line i = Fin q.
(** [r] is the linear interpolation at [i] between the closest known values on both sides along a line of n values *)
Definition gap_value (n : Z) (line : Z -> val) (i : Z) (r : Qc) : Prop :=
  exists l u a b, 0 <= l < i /\ i < u < n /\ line l = Fin a /\ line u = Fin b /\
    (forall k, l < k < u -> ~ known line k) /\
    r = (a + (b - a) * (qz (i - l) / qz (u - l)))%Qc.
Definition no_gap_value (n : Z) (line : Z -> val) (i : Z) : Prop :=
  (forall k, 0 <= k < i -> ~ known line k) \/ (forall k, i < k < n -> ~ known line k).
(** total lookup, only used inside the array *)
Definition field_at (v : vec2) (y x : Z) : val := match get2 v y x with Ok a => a | _ => NaN end.

(** ** gridding *)
(** [x] is the statistic of the values of the points found within [r] of (la, lo), missing if these are fewer than min_num *)
Definition gridding_value (E : ext) G t las los (values : vec) r min_num st la lo (x : val) : Prop :=
  exists I curr, NoDup I /\
    (forall i, In i I <-> exists q, point_at G t las los i q /\ in_circle (position G t la lo) q (Fin r)) /\
    Forall2 (fun i v => znth values i = Ok v) I curr /\
    (zlen I < min_num -> x = MV) /\ (min_num <= zlen I -> stat_of E st (finites curr) x).
(** statistic of the values [l] collected by one output cell: missing without any, or with fewer than min_num *)
Definition cell_value (E : ext) (min_num : Z) (st : statistic) (l : vec) (x : val) : Prop :=
  (l = [] -> x = MV) /\ (zlen l < min_num -> x = MV) /\ (l <> [] -> min_num <= zlen l -> stat_of E st (finites l) x).

(** ** fill and doping *)
(** point i, with radius radii[i], reaches the grid cell (y, x) *)
Definition circle_reach G t lats lons las los (radii : vec) (i y x : Z) : Prop :=
  exists la lo r q, znth las i = Ok la /\ znth los i = Ok lo /\ znth radii i = Ok r /\
    grid_at G t lats lons y x q /\ in_circle (position G t la lo) q r.
(** the elevation limit does not exclude the cell for point i *)
Definition not_excluded (ig : grid) (P : points) (m : val) (i y x : Z) : Prop :=
  forall pe ge, znth (s_elevs P) i = Ok pe -> get2 (g_elevs ig) y x = Ok ge -> ~ elev_excluded m pe ge.
(** the cell is in the square of half width hw[i] around the given cell of point i *)
Definition square_reach (cell : Z -> Z * Z) (hw : list Z) (i y x : Z) : Prop :=
  exists h, znth hw i = Ok h /\ Z.abs (y - fst (cell i)) <= h /\ Z.abs (x - snd (cell i)) <= h.

(** ** count *)
(** [x] is the number of locations found by a radius search around (la, lo) *)
Definition count_value {I} (at_ : I -> xyz -> Prop) (p : xyz) (r : val) (x : val) : Prop :=
  exists L : list I, NoDup L /\ (forall i, In i L <-> exists q, at_ i q /\ in_circle p q r) /\ x = fz (zlen L).
