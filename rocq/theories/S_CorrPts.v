(** Specification of correlations to knots and of smart neighbours. *)
From Verif Require Import Base M_Geo S_Stat S_Geo S_Near.
Local Open Scope Z_scope.

(** [k] is within the localization distance of [p1] (located at [pos]) and positively correlated with it, by [c] *)
Definition linked G t las los (knots : points) (loc : point -> val) (bg : point -> point -> val) (p1 : point) (pos : xyz) (k : Z) (c : val) : Prop :=
  exists q pk, point_at G t las los k q /\ in_circle pos q (loc p1) /\ points_get knots k = Ok pk /\ bg p1 pk = c /\ vltb (fz 0) c = true.
(** one row of the correlation matrix: at most [max_points] (all, if 0) of the linked knots carry their correlation,
    the others are 0, and no linked knot set to 0 is more correlated than one that is kept *)
Definition corr_row_ok (link : Z -> val -> Prop) (n max_points : Z) (row : vec) : Prop :=
  zlen row = n /\ exists U, NoDup U /\ (0 < max_points -> zlen U <= max_points) /\
  (forall k, In k U -> exists c, link k c /\ znth row k = Ok c) /\
  (forall k, 0 <= k < n -> ~ In k U -> znth row k = Ok (fz 0)) /\
  (max_points = 0 \/ zlen U < max_points -> forall k c, link k c -> In k U) /\
  (forall k c k' c', In k U -> link k c -> link k' c' -> ~ In k' U -> vleb c' c = true).
(** the cells of an input grid within the localization distance, with their correlation *)
Definition neighbour_cell G t lats lons (ig : grid) (loc : point -> val) (rho : point -> point -> val) (p1 : point) (pos : xyz) (c : Z * Z) (r : val) : Prop :=
  exists q p2, grid_at' G t lats lons c q /\ in_circle pos q (loc p1) /\ grid_get ig (fst c) (snd c) = Ok p2 /\ rho p1 p2 = r.
(** [v] is the mean value of [num] of the neighbour cells (all, if there are fewer); no other neighbour is more correlated
    than one of them *)
Definition smart_value (near : Z * Z -> val -> Prop) (ivalues : vec2) (num : Z) (v : val) : Prop :=
  exists U vs, NoDup U /\ Forall2 (fun c x => get2 ivalues (fst c) (snd c) = Ok x) U vs /\
  (forall c, In c U -> exists r, near c r) /\ zlen U <= Z.max num 0 /\
  (zlen U < num -> forall c r, near c r -> In c U) /\
  ((forall c r, near c r -> r <> NaN) -> forall c r c' r', In c U -> near c r -> near c' r' -> ~ In c' U -> vleb r' r = true) /\
  (vs = [] -> v = MV) /\ (forall x l, vs = map Fin (x :: l) -> v = Fin (qmean (x :: l))) /\ (In NaN vs -> v = NaN).
