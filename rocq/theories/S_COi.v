(** Specification of the client's optimal interpolation. *)
From Verif Require Import Base M_Stat S_Stat M_COpt M_CUtil S_CUtil M_CCal S_CCal S_CTree M_CKrig S_CKrig M_COi.
Local Open Scope Z_scope.

Record place := { p_la : Qc; p_lo : Qc; p_el : Qc; p_land : Qc }.
Definition placed (la lo el laf : val) (p : place) : Prop :=
  la = Fin (p_la p) /\ lo = Fin (p_lo p) /\ el = Fin (p_el p) /\ laf = Fin (p_land p) /\ on_earth (p_la p) (p_lo p) /\ p_el p <> missing_number /\ (0 <= p_land p <= 1)%Qc.
Definition station_at (s : station) (p : place) : Prop := placed (l_lat (st_loc s)) (l_lon (st_loc s)) (l_elev (st_loc s)) (st_laf s) p.
Definition along (D : Qc -> Qc -> Qc -> Qc -> Qc) (a b : place) : Qc := D (p_la a) (p_lo a) (p_la b) (p_lo b).
(** the decorrelation lengths in use *)
Record scales := { s_d : Qc; s_h : option Qc; s_wmin : option Qc; s_w : option Qc }.
Definition in_use (v : val) (s : option Qc) : Prop := match s with Some q => v = Fin q /\ q <> missing_number | None => missing v end.
Definition scaled (o : oi_options) (s : scales) : Prop :=
  oi_d o = Fin (s_d s) /\ (0 < s_d s)%Qc /\ in_use (oi_h o) (s_h s) /\ in_use (oi_wmin o) (s_wmin s) /\ in_use (oi_w o) (s_w s) /\
  (forall q, s_h s = Some q -> 0 < q)%Qc /\ (forall q, s_wmin s = Some q -> 0 <= q <= 1)%Qc /\ (forall q, s_w s = Some q -> 0 < q)%Qc.
Definition factor (s : option Qc) (f : Qc -> Qc) : Qc := match s with Some q => f q | None => 1%Qc end.
Definition correlation (soar : bool) (exq : Qc -> Qc) (s : scales) (h v l : Qc) : Qc :=
  ((if soar then (1 + h / s_d s) * exq (- (h / s_d s)) else falloff false exq (s_d s) h) * factor (s_h s) (fun m => falloff false exq m v) *
   factor (s_wmin s) (fun m => 1 - (1 - m) * l) * factor (s_w s) (fun m => falloff false exq m l))%Qc.
Definition related (D : Qc -> Qc -> Qc -> Qc -> Qc) (o : oi_options) (exq : Qc -> Qc) (s : scales) (a b : place) : Qc :=
  correlation (oi_soar o) exq s (along D a b) (apart (p_el a) (p_el b)) (apart (p_land a) (p_land b)).
(** what the second-order autoregressive function needs: (1 + x) exp(-x) does not increase *)
Definition soar_like (exq : Qc -> Qc) : Prop := forall x y, (0 <= x -> x <= y -> (1 + y) * exq (- y) <= (1 + x) * exq (- x))%Qc.
(** elevations whose difference is not taken for a missing value *)
Definition comparable (s : scales) (a b : place) : Prop := s_h s <> None -> (p_el a - p_el b)%Qc <> missing_number.

(** the stations that may be used at all *)
Definition acceptable (o : oi_options) (elevs : list vec) (s : station) : Prop :=
  ~ missing (st_obs s) /\ (oi_land o = true -> st_laf s <> fz 0) /\
  forall m, oi_maxelev o = Fin m -> m <> missing_number -> exists e e', l_elev (st_loc s) = Fin e /\ e <> missing_number /\ get2 elevs (st_y s) (st_x s) = Ok (Fin e') /\ (apart e e' < m)%Qc.
(** how far a station reaches: on grids with one row or column up to a distance, on others r cells to one side and r-1 to the other, unless its cell is at the border *)
Definition reach (kind : option Z) (far : Qc) (d : dims) (dist : Qc) (s : station) (y x : Z) : Prop :=
  match kind with
  | None => (dist < far)%Qc
  | Some r => 0 < st_x s < d_x d - 1 /\ 0 < st_y s < d_y d - 1 /\ st_y s - r <= y < st_y s + r /\ st_x s - r <= x < st_x s + r
  end.
Definition candidates (D : Qc -> Qc -> Qc -> Qc -> Qc) (exq : Qc -> Qc) (o : oi_options) (s : scales) (minrho rf : Qc) (kind : option Z) (d : dims) (elevs : list vec) (ss : list station) (a : Z -> place) (b : place) (y x : Z) (l : list (val * Z)) : Prop :=
  NoDup (map snd l) /\ forall v i, In (v, i) l <-> exists st, znth ss i = Ok st /\ acceptable o elevs st /\ reach kind (rf * s_d s) d (along D (a i) b) st y x /\ v = Fin (related D o exq s (a i) b) /\ (minrho < related D o exq s (a i) b)%Qc.
(** at most so many, and none better left out *)
Definition best (most : Z) (l : list (val * Z)) (us : list Z) : Prop :=
  NoDup us /\ (forall i, In i us -> In i (map snd l)) /\ zlen us = Z.min most (zlen l) /\
  forall p q p' i i', In (p, i) l -> In (p', i') l -> In i us -> ~ In i' us -> p = Fin q -> exists q', p' = Fin q' /\ (q' <= q)%Qc.
(** the greatest taken out *)
Definition all_but_greatest (l l' : list (val * Z)) : Prop :=
  exists k l1 l2 q, l = l1 ++ (Fin q, k) :: l2 /\ l' = l1 ++ l2 /\ forall p i, In (p, i) l -> exists q', p = Fin q' /\ (q' <= q)%Qc.

(** the observations of time 0 and their cells *)
Definition observed (nn : location -> Z * Z) (lafs : list vec) (pars : Z -> location -> vec) (d : dims) (locs : list location) (ss : list station) : Prop :=
  zlen ss = zlen locs /\ forall i l st, znth locs i = Ok l -> znth ss i = Ok st ->
    st_loc st = l /\ nn l = (st_y st, st_x st) /\ 0 <= st_y st < d_y d /\ 0 <= st_x st < d_x d /\ get2 lafs (st_y st) (st_x st) = Ok (st_laf st) /\
    exists rest, pars 0 l = st_obs st :: rest /\ (rest = [st_ci st] \/ zlen rest <> 1 /\ st_ci st = fz 1).
Definition whole (d : dims) (fs : list field) (t e : Z) : Prop := forall y x, 0 <= y < d_y d -> 0 <= x < d_x d -> exists q, element fs t y x e (Fin q) /\ q <> missing_number.
(** the matrix of the equations: correlations of the stations, with the variances of their errors *)
Definition with_errors (D : Qc -> Qc -> Qc -> Qc -> Qc) (o : oi_options) (exq : Qc -> Qc) (s : scales) (eps : Qc) (a : Z -> place) (ci : Z -> Qc) (i j : Z) : Qc :=
  (related D o exq s (a i) (a j) + if i =? j then eps * eps * ci i else 0)%Qc.
Definition matrix_of (us : list Z) (m : Z -> Z -> Qc) (A : list vec) : Prop :=
  rect (zlen us) (zlen us) A /\ forall k l i j, znth us k = Ok i -> znth us l = Ok j -> get2 A k l = Ok (Fin (m i j)).
(** the function called inverts the matrices of the stations *)
Definition inverts_stations (inv : list vec -> list vec) (n : Z) (m : Z -> Z -> Qc) : Prop :=
  forall us A, us <> [] -> NoDup us -> (forall i, In i us -> 0 <= i < n) -> matrix_of us m A -> rect (zlen us) (zlen us) (inv A) /\ inverse_of (zlen us) (inv A) A.
Definition over (us : list Z) (f : Z -> Qc) : Qc := qsum (map f us).
(** weights w of the stations us with w M = g *)
Definition gains (us : list Z) (m : Z -> Z -> Qc) (g w : Z -> Qc) : Prop := forall j, In j us -> over us (fun i => w i * m i j)%Qc = g j.
(** regular or not, with the radius in cells *)
Definition grid_kind (E : Qc -> Qc -> Qc -> Qc -> Qc) (o : oi_options) (s : scales) (rf : Qc) (d : dims) (b : Z -> Z -> place) (n : Z) (kind : option Z) : Prop :=
  match kind with
  | None => d_y d <= 1 \/ d_x d <= 1
  | Some r => 1 < d_y d /\ 1 < d_x d /\ (0 < along E (b 0%Z 0%Z) (b 1%Z 0%Z))%Qc /\ 0 <= r /\ (qz r * along E (b 0%Z 0%Z) (b 1%Z 0%Z) <= rf * s_d s < qz (r + 1) * along E (b 0%Z 0%Z) (b 1%Z 0%Z))%Qc /\
      (forall m, oi_maxbytes o = Fin m -> m <> missing_number -> qz (r * r * 16) * qz n <= m)%Qc
  end.
(** the change of the background for the elevation of the station *)
Definition lapse (gr : Qc) (a : Z -> place) (b : Z -> Z -> place) (i : Z) (st : station) : Qc := (gr * (p_el (a i) - p_el (b (st_y st) (st_x st))))%Qc.
Definition oi_case (D E : Qc -> Qc -> Qc -> Qc -> Qc) (exq : Qc -> Qc) (inv : list vec -> list vec) (nn : location -> Z * Z) (o : oi_options) (s : scales) (minrho rf eps gr : Qc) (kind : option Z)
    (locs : list location) (pars : Z -> location -> vec) (lats lons elevs lafs : list vec) (d : dims) (fs : list field) (ss : list station) (a : Z -> place) (b : Z -> Z -> place) (ci : Z -> Qc) : Prop :=
  (metric_like D /\ metric_like E /\ exponential exq /\ (oi_soar o = true -> soar_like exq)) /\
  (scaled o s /\ oi_minrho o = Fin minrho /\ oi_epsilon o = Fin eps /\ ((oi_gradient o = Fin gr /\ gr <> missing_number) \/ (missing (oi_gradient o) /\ gr = 0%Qc)) /\ oi_useens o = false /\ oi_cross o = false /\ 0 <= oi_max o) /\
  (shaped d fs /\ rect (d_y d) (d_x d) lats /\ rect (d_y d) (d_x d) lons /\ rect (d_y d) (d_x d) elevs /\ rect (d_y d) (d_x d) lafs) /\
  grid_kind E o s rf d b (zlen locs) kind /\ observed nn lafs pars d locs ss /\
  (forall i st, znth ss i = Ok st -> station_at st (a i) /\ st_ci st = Fin (ci i)) /\
  (forall y x la lo el laf, get2 lats y x = Ok la -> get2 lons y x = Ok lo -> get2 elevs y x = Ok el -> get2 lafs y x = Ok laf -> placed la lo el laf (b y x)) /\
  (forall i j y x, 0 <= i < zlen ss -> comparable s (a i) (b y x) /\ (0 <= j < zlen ss -> comparable s (a i) (a j))) /\
  inverts_stations inv (zlen ss) (with_errors D o exq s eps a ci) /\
  (forall t i st e q, znth ss i = Ok st -> element fs t (st_y st) (st_x st) e (Fin q) -> q <> missing_number -> (missing_number < q + lapse gr a b i st)%Qc).
(** the observations and the background of a member at the stations *)
Definition departures (fs : list field) (t e : Z) (ss : list station) (us : list Z) (gr : Qc) (a : Z -> place) (b : Z -> Z -> place) (ob bg : Z -> Qc) : Prop :=
  forall i st, In i us -> znth ss i = Ok st -> st_obs st = Fin (ob i) /\ exists q, element fs t (st_y st) (st_x st) e (Fin q) /\ bg i = (q + lapse gr a b i st)%Qc.

(** the spread of the members at a station, if at least two are present *)
Definition spreads (gY : list vec) : list Qc :=
  flat_map (fun row => let p := present row in if 1 <? zlen p then [qsum (map (fun q => q * q)%Qc p) / qz (zlen p - 1)]%Qc else []) gY.
