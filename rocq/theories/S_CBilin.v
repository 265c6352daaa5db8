(** Specification of the client's bilinear downscaler. *)
From Verif Require Import Base M_Stat S_Stat M_COpt M_CUtil S_CUtil M_CCal S_CCal S_Bilin.
Local Open Scope Z_scope.

(** a grid with the latitudes ys along the first and the longitudes xs along the second dimension *)
Definition rect_grid (ys xs : list Qc) (lats lons : list vec) : Prop :=
  rect (zlen ys) (zlen xs) lats /\ rect (zlen ys) (zlen xs) lons /\
  forall i j a b, znth ys i = Ok a -> znth xs j = Ok b -> get2 lats i j = Ok (Fin a) /\ get2 lons i j = Ok (Fin b).
Definition rising (l : list Qc) : Prop := forall i a b, znth l i = Ok a -> znth l (i + 1) = Ok b -> (a < b)%Qc.
Definition falling (l : list Qc) : Prop := forall i a b, znth l i = Ok a -> znth l (i + 1) = Ok b -> (b < a)%Qc.
(** q is above the one and not above the other of two neighbours in the list; w is its relative position from the first *)
Definition in_step (l : list Qc) (k : Z) (q w : Qc) : Prop :=
  exists a b, znth l k = Ok a /\ znth l (k + 1) = Ok b /\ ((a < q /\ q <= b) \/ (b < q /\ q <= a))%Qc /\ w = ((q - a) / (b - a))%Qc.
(** q is beyond the values of the list (or at the least of them), and k is the end at which it is *)
Definition beyond (l : list Qc) (k : Z) (q : Qc) : Prop :=
  exists a, znth l k = Ok a /\ (((forall b, In b l -> a <= b) /\ q <= a) \/ ((forall b, In b l -> b <= a) /\ a < q))%Qc.
(** k is an end of the step with q in it *)
Definition near_step (l : list Qc) (k : Z) (q : Qc) : Prop := exists i w, in_step l i q w /\ (k = i \/ k = i + 1).
(** the value of a cell at the position (s, u): missing if a corner is missing *)
Definition present4 (v0 v1 v2 v3 : val) (q0 q1 q2 q3 : Qc) : Prop := v0 = Fin q0 /\ v1 = Fin q1 /\ v2 = Fin q2 /\ v3 = Fin q3 /\ ~ missing v0 /\ ~ missing v1 /\ ~ missing v2 /\ ~ missing v3.
Definition cell_value (read : Z -> Z -> val -> Prop) (i j : Z) (s u : Qc) (own r : val) : Prop :=
  exists v0 v1 v2 v3, read i j v0 /\ read (i + 1) j v1 /\ read i (j + 1) v2 /\ read (i + 1) (j + 1) v3 /\
    (forall q0 q1 q2 q3, present4 v0 v1 v2 v3 q0 q1 q2 q3 -> r = Fin (blend q0 q1 q2 q3 s u)) /\
    (missing v0 \/ missing v1 \/ missing v2 \/ missing v3 -> r = own).
(** the places where the code fails to find the cell: falling latitudes in the first row, falling longitudes in the first column or in the row
    with the number of the last column *)
Definition lost (ys xs : list Qc) (a b : Z) : Prop := (falling ys /\ a = 0) \/ (falling xs /\ (b = 0 \/ a = zlen xs - 1)).
(** adjacent values differ, in columns and in rows *)
Definition distinct_steps (g : list vec) (dy dx : Z) : Prop := forall i j u v, get2 g i j = Ok u -> get2 g (i + dy) (j + dx) = Ok v -> exists p q, u = Fin p /\ v = Fin q /\ p <> q.
Definition rising_rows (g : list vec) : Prop := forall i j u v, get2 g i j = Ok u -> get2 g i (j + 1) = Ok v -> exists p q, u = Fin p /\ v = Fin q /\ (p < q)%Qc.
(** the output point (y, x) is at (lat, lon), and (a, b) is the input point given as nearest to it *)
Definition sited (olats olons : list vec) (m : list (list (Z * Z))) (y x : Z) (lat lon : Qc) (a b : Z) : Prop :=
  get2 olats y x = Ok (Fin lat) /\ get2 olons y x = Ok (Fin lon) /\ get2 m y x = Ok (a, b).
(** the nearest point is a corner of the cell of the location if that is within the grid, and at the edge of the grid if not *)
Definition well_sited (ys xs : list Qc) (lat lon : Qc) (a b : Z) : Prop :=
  (near_step ys a lat \/ beyond ys a lat) /\ (near_step xs b lon \/ beyond xs b lon).
(** the value that belongs to a location: interpolated in its cell, or the nearest one if it is beyond the grid *)
Definition interpolated (ys xs : list Qc) (lat lon : Qc) (a b : Z) (read : Z -> Z -> val -> Prop) (own w : val) : Prop :=
  (near_step ys a lat -> near_step xs b lon -> exists i j u s, in_step ys i lat u /\ in_step xs j lon s /\ (a = i \/ a = i + 1) /\ (b = j \/ b = j + 1) /\ cell_value read i j s u own w) /\
  (beyond ys a lat \/ beyond xs b lon -> read a b w).
(** an average of the values at the corners of a cell with the corner (a, b), missing or [own] if one of them is missing *)
Definition average (read : Z -> Z -> val -> Prop) (a b : Z) (own w : val) : Prop :=
  exists i j s u, corner_of a b i j /\ unit_range s /\ unit_range u /\ cell_value read i j s u own w.
(** q is in the step k of the list, ends included, at the relative position w from the first *)
Definition at_position (l : list Qc) (k : Z) (q w : Qc) : Prop := exists a b, znth l k = Ok a /\ znth l (k + 1) = Ok b /\ unit_range w /\ q = (a + w * (b - a))%Qc.
