(** Specification of the search for the nearest grid point. *)
From Coq Require Import Permutation Sorted Reals.
From Verif Require Import Base M_Stat M_COpt M_CUtil S_CUtil M_CTree RBase.
Local Open Scope Z_scope.

(** a grid, and its points with coordinates that are present *)
Definition grid (ny nx : Z) (lats lons : list vec) : Prop := 0 < ny /\ 0 < nx /\ rect ny nx lats /\ rect ny nx lons.
Definition point (lats lons : list vec) (i j : Z) (lat lon : Qc) : Prop :=
  get2 lats i j = Ok (Fin lat) /\ get2 lons i j = Ok (Fin lon) /\ lat <> missing_number /\ lon <> missing_number.
Definition on_earth (lat lon : Qc) : Prop :=
  (qz (-90) <= lat <= qz 90 /\ qz (-360) <= lon <= qz 360)%Qc /\ lat <> missing_number /\ lon <> missing_number.
Definition all_on_earth (lats lons : list vec) : Prop := forall i j lat lon, point lats lons i j lat lon -> on_earth lat lon.
(** no point is closer *)
Definition is_nearest (dist : Qc -> Qc -> Qc) (lats lons : list vec) (i j : Z) : Prop :=
  exists lat lon, point lats lons i j lat lon /\ forall i' j' lat' lon', point lats lons i' j' lat' lon' -> (dist lat lon <= dist lat' lon')%Qc.

Definition lift4 (D : Qc -> Qc -> Qc -> Qc -> Qc) (a b c d : val) : val :=
  match a, b, c, d with Fin a, Fin b, Fin c, Fin d => Fin (D a b c d) | _, _, _, _ => NaN end.
(** the distance of a point to itself is 0 *)
Definition zero_at_itself (D : Qc -> Qc -> Qc -> Qc -> Qc) : Prop := forall lat lon, D lat lon lat lon = 0%Qc.
Definition in_between (a c b : Qc) : Prop := (a <= c /\ c <= b)%Qc \/ (b <= c /\ c <= a)%Qc.
(** a point beyond a meridian (a parallel) is not closer than the point of that meridian (parallel) with the same latitude (longitude) *)
Definition straight (D : Qc -> Qc -> Qc -> Qc -> Qc) : Prop :=
  (forall lat lon plat plon c, in_between lon c plon -> D lat lon lat c <= D lat lon plat plon)%Qc /\
  (forall lat lon plat plon c, in_between lat c plat -> D lat lon c lon <= D lat lon plat plon)%Qc.
(** std::sort by longitude (true) or latitude (false), with ties in any order *)
Definition valid_item (it : item) : Prop := exists lat lon, it_lat it = Fin lat /\ it_lon it = Fin lon /\ lat <> missing_number /\ lon <> missing_number.
Definition sorts_items (srt : bool -> list item -> list item) : Prop :=
  forall xs l, Forall valid_item l -> Permutation (srt xs l) l /\ StronglySorted (fun a b => vltb (coord xs b) (coord xs a) = false) (srt xs l).

(** the great circle: Util.cpp:132-135, in degrees of arc *)
Definition arc (lat1 lon1 lat2 lon2 : R) : R :=
  let r x := (x * PI / 180)%R in
  (acos (cos (r lat1) * cos (r lon1) * cos (r lat2) * cos (r lon2) + cos (r lat1) * sin (r lon1) * cos (r lat2) * sin (r lon2) + sin (r lat1) * sin (r lat2)) * 180 / PI)%R.
(** a distance that is the arc wherever that is a whole number of degrees *)
Definition great_circle (D : Qc -> Qc -> Qc -> Qc -> Qc) : Prop :=
  forall a b c d r, 0 <= r <= 180 -> arc (qr a) (qr b) (qr c) (qr d) = IZR r -> D a b c d = qz r.
