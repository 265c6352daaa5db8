(** Specification vocabulary for bilinear interpolation. *)
From Verif Require Import Base M_Geo S_Geo S_Near.

(** bilinear combination of the corner values: [s] along the row from v0 to v2, [u] along the column from v0 to v1 *)
Definition blend (v0 v1 v2 v3 s u : Qc) : Qc :=
  (v0 * (1 - s) * (1 - u) + v2 * s * (1 - u) + v1 * (1 - s) * u + v3 * s * u)%Qc.
Definition unit_range (s : Qc) : Prop := (0 <= s /\ s <= 1)%Qc.
(** the four values (or coordinates) at the corners of the cell with lower corner (y, x) *)
Definition corners {A} (f : list (list A)) (y x : Z) (a0 a1 a2 a3 : A) : Prop :=
  get2 f y x = Ok a0 /\ get2 f (y + 1) x = Ok a1 /\ get2 f y (x + 1) = Ok a2 /\ get2 f (y + 1) (x + 1) = Ok a3.
(** every cell is a parallelogram that is not degenerate *)
Definition parallelogram_cells (lats lons : list (list Qc)) : Prop :=
  forall y x y0 y1 y2 y3 x0 x1 x2 x3, corners lats y x y0 y1 y2 y3 -> corners lons y x x0 x1 x2 x3 ->
    (x3 = x1 + x2 - x0 /\ y3 = y1 + y2 - y0)%Qc /\ cross x0 y0 x2 y2 x1 y1 <> 0%Qc.
(** (la, lo) has the position (s, u) in the cell with lower corner (y, x): [s] along the row, [u] along the column *)
Definition cell_position (lats lons : list (list Qc)) (y x : Z) (la lo s u : Qc) : Prop :=
  exists y0 y1 y2 y3 x0 x1 x2 x3, corners lats y x y0 y1 y2 y3 /\ corners lons y x x0 x1 x2 x3 /\
    (lo = x0 + s * (x2 - x0) + u * (x1 - x0))%Qc /\ (la = y0 + s * (y2 - y0) + u * (y1 - y0))%Qc.
Definition in_pcell (lats lons : list (list Qc)) (y x : Z) (la lo : Qc) : Prop :=
  exists s u, unit_range s /\ unit_range u /\ cell_position lats lons y x la lo s u.
(** (yn, xn) is a corner of the cell (y, x) *)
Definition corner_of (yn xn y x : Z) : Prop := (yn = y \/ yn = y + 1) /\ (xn = x \/ xn = x + 1).
Definition all_finite (w0 w1 w2 w3 : val) : Prop := exists v0 v1 v2 v3, w0 = Fin v0 /\ w1 = Fin v1 /\ w2 = Fin v2 /\ w3 = Fin v3.
(** what bilinear gives at a location for cells that are parallelograms: interpolation in a cell at the nearest grid point
    that encloses the location, the value of the nearest grid point if there is none or a corner value is missing *)
Definition bilinear_at (G : geo) (t : ctype) (lats lons : list (list Qc)) (v : vec2) (la lo : Qc) (r : val) : Prop :=
  exists yn xn, closest (grid_at' G t lats lons) (position G t la lo) true (yn, xn) /\
  (((forall y x, corner_of yn xn y x -> ~ in_pcell lats lons y x la lo) /\ get2 v yn xn = Ok r) \/
   exists y x s u w0 w1 w2 w3, corner_of yn xn y x /\ unit_range s /\ unit_range u /\ cell_position lats lons y x la lo s u /\
     corners v y x w0 w1 w2 w3 /\
     (forall v0 v1 v2 v3, w0 = Fin v0 -> w1 = Fin v1 -> w2 = Fin v2 -> w3 = Fin v3 -> r = Fin (blend v0 v1 v2 v3 s u)) /\
     (~ all_finite w0 w1 w2 w3 -> get2 v yn xn = Ok r)).
(** for cells of any shape: a weighted mean of the corner values of a cell, or the value of the nearest grid point *)
Definition bilinear_mean (G : geo) (t : ctype) (lats lons : list (list Qc)) (v : vec2) (la lo : Qc) (r : val) : Prop :=
  exists yn xn, closest (grid_at' G t lats lons) (position G t la lo) true (yn, xn) /\
  (get2 v yn xn = Ok r \/
   exists y x v0 v1 v2 v3 s u, corner_of yn xn y x /\ corners v y x (Fin v0) (Fin v1) (Fin v2) (Fin v3) /\
     unit_range s /\ unit_range u /\ r = Fin (blend v0 v1 v2 v3 s u)).
(** every output value is related to its location *)
Definition each_grid {A} (lats lons : list (list Qc)) (P : Qc -> Qc -> A -> Prop) (out : list (list A)) : Prop :=
  forall i j la lo, get2 lats i j = Ok la -> get2 lons i j = Ok lo -> exists r, get2 out i j = Ok r /\ P la lo r.
Definition each_point {A} (las los : list Qc) (P : Qc -> Qc -> A -> Prop) (out : list A) : Prop :=
  zlen out = zlen las /\ forall i la lo, znth las i = Ok la -> znth los i = Ok lo -> exists r, znth out i = Ok r /\ P la lo r.
(** no coordinate is refused when get_box builds its corner points (see C68) *)
Definition box_accepted (t : ctype) (lats : list (list Qc)) (las : list Qc) : Prop :=
  t = Geodetic \/ (valid_all Geodetic las /\ valid_all2 Geodetic lats).
(** (la, lo) is the image of (s, u) under the bilinear map onto the cell, which may have any shape *)
Definition blend_position (lats lons : list (list Qc)) (y x : Z) (la lo s u : Qc) : Prop :=
  exists y0 y1 y2 y3 x0 x1 x2 x3, corners lats y x y0 y1 y2 y3 /\ corners lons y x x0 x1 x2 x3 /\
    lo = blend x0 x1 x2 x3 s u /\ la = blend y0 y1 y2 y3 s u.
(** the quadrilateral turns in the same direction at every corner *)
Definition convex_cell (lats lons : list (list Qc)) (y x : Z) : Prop :=
  exists y0 y1 y2 y3 x0 x1 x2 x3, corners lats y x y0 y1 y2 y3 /\ corners lons y x x0 x1 x2 x3 /\
    let c := [cross x0 y0 x1 y1 x3 y3; cross x1 y1 x3 y3 x2 y2; cross x3 y3 x2 y2 x0 y0; cross x2 y2 x0 y0 x1 y1] in
    (Forall (fun d => 0 < d)%Qc c \/ Forall (fun d => d < 0)%Qc c).
(** the square root is exact on squares *)
Definition exact_sqrt (E : ext) : Prop := forall x, (0 <= x)%Qc -> ext_sqrt E (x * x)%Qc = x.
