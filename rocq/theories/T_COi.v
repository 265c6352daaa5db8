(** The client's optimal interpolation: C222-C228, C230, C231. *)
From Coq Require Import Lia.
From Verif Require Import Base ListLib QcTac M_Stat S_Stat M_COpt M_CUtil S_CUtil P_CUtil M_CCal S_CCal P_CCal M_CTree S_CTree P_CDown P_CDistEx M_CKrig S_CKrig P_CKrigEx M_COi S_COi P_COi P_COi2 P_COiEx.
Local Open Scope Z_scope.

(** C222: the correlation of a station with a point.  False for stations without elevation, and not symmetric *)
Theorem C222_elevation_refuted : exists D exq o st la lo el laf q c, metric_like D /\ exponential exq /\ oi_h o = Fin q /\ (0 < q)%Qc /\ missing (l_elev (st_loc st)) /\ oi_rho (lift4 D) (on_numbers exq) o st la lo el laf = Ok (Fin c) /\ (0 < c)%Qc.
Proof. exact c222_elevation. Qed.
Print Assumptions C222_elevation_refuted.
Theorem C222_symmetry_refuted : exists D exq o st st' a a' c, metric_like D /\ exponential exq /\ station_at st a /\ station_at st' a' /\
  oi_rho (lift4 D) (on_numbers exq) o st (l_lat (st_loc st')) (l_lon (st_loc st')) (l_elev (st_loc st')) (st_laf st') = Ok (Fin 0%Qc) /\
  oi_rho (lift4 D) (on_numbers exq) o st' (l_lat (st_loc st)) (l_lon (st_loc st)) (l_elev (st_loc st)) (st_laf st) = Ok (Fin c) /\ (0 < c)%Qc.
Proof. exact c222_symmetry. Qed.
Print Assumptions C222_symmetry_refuted.
Theorem C222_correlation_partial : forall D exq o s st a la lo el laf b, metric_like D -> exponential exq -> (oi_soar o = true -> soar_like exq) -> scaled o s -> station_at st a -> placed la lo el laf b -> comparable s a b ->
  exists c, oi_rho (lift4 D) (on_numbers exq) o st la lo el laf = Ok (Fin c) /\ c = related D o exq s a b /\ (0 <= c <= 1)%Qc /\
    (along D a b = 0%Qc -> p_el a = p_el b -> p_land a = p_land b -> c = 1%Qc) /\
    (forall st' la' lo' el' laf', station_at st' b -> placed la' lo' el' laf' a -> comparable s b a -> oi_rho (lift4 D) (on_numbers exq) o st' la' lo' el' laf' = Ok (Fin c)) /\
    (forall la' lo' el' laf' b', placed la' lo' el' laf' b' -> comparable s a b' -> (along D a b <= along D a b')%Qc -> (apart (p_el a) (p_el b) <= apart (p_el a) (p_el b'))%Qc -> (apart (p_land a) (p_land b) <= apart (p_land a) (p_land b'))%Qc ->
      exists c', oi_rho (lift4 D) (on_numbers exq) o st la' lo' el' laf' = Ok (Fin c') /\ (c' <= c)%Qc).
Proof. exact c222. Qed.
Print Assumptions C222_correlation_partial.
Example C222_example : metric_like flat /\ exponential expo /\ scaled plain ten /\ station_at (st10 (fz 14)) (p_lat 10) /\ placed (fz 15) (fz 0) (fz 0) (fz 1) (p_lat 15) /\ oi_rho (lift4 flat) (on_numbers expo) plain (st10 (fz 14)) (fz 15) (fz 0) (fz 0) (fz 1) = Ok (fq (8 # 9)).
Proof. split; [apply flat_metric|]. split; [apply expo_exponential|]. split; [apply plain_scaled|]. split; [apply p_lat_placed; reflexivity|]. split; [apply p_lat_placed; reflexivity|]. fcalc. Qed.

(** C223: the stations considered at a point.  False on grids with rows and columns: not the same on both sides *)
Theorem C223_same_distance_refuted : exists D exq o rf r ss st a (b b' : place) (y x y' x' : Z) l, metric_like D /\ exponential exq /\ ss = [st] /\ station_at st a /\ placed (fz 10) (fz 0) (fz 0) (fz 1) b /\ placed (fz 12) (fz 0) (fz 0) (fz 1) b' /\ along D a b = along D a b' /\ (along D a b' <= rf)%Qc /\
  st_y st - y = y' - st_y st /\ x = x' /\ x = st_x st /\
  oi_near (lift4 D) (on_numbers exq) (Fin rf) o true r 4 4 (rows4 (fun _ => fz 0)) ss (fz 10) (fz 0) (fz 0) (fz 1) y x = Ok l /\ l <> [] /\
  oi_near (lift4 D) (on_numbers exq) (Fin rf) o true r 4 4 (rows4 (fun _ => fz 0)) ss (fz 12) (fz 0) (fz 0) (fz 1) y' x' = Ok [].
Proof. exact c223_window. Qed.
Print Assumptions C223_same_distance_refuted.
Theorem C223_stations_partial : forall D exq o s minrho rf kind d elevs ss a b la lo el laf y x, metric_like D -> scaled o s -> oi_minrho o = Fin minrho -> rect (d_y d) (d_x d) elevs -> (forall i j e, get2 elevs i j = Ok e -> exists q, e = Fin q) ->
  (forall i st, znth ss i = Ok st -> station_at st (a i) /\ 0 <= st_y st < d_y d /\ 0 <= st_x st < d_x d /\ comparable s (a i) b) -> placed la lo el laf b -> 0 <= y < d_y d -> 0 <= x < d_x d ->
  exists l, oi_near (lift4 D) (on_numbers exq) (Fin rf) o (match kind with Some _ => true | None => false end) (match kind with Some r => r | None => 0 end) (d_y d) (d_x d) elevs ss la lo el laf y x = Ok l /\ candidates D exq o s minrho rf kind d elevs ss a b y x l.
Proof. exact c223. Qed.
Print Assumptions C223_stations_partial.
Example C223_example : (exists l, oi_near (lift4 flat) (on_numbers expo) (Fin 1%Qc) plain false 0 1 2 [[fz 0; fz 0]] [st10 (fz 14); st10 CMV] (fz 15) (fz 0) (fz 0) (fz 1) 0 1 = Ok l /\ map snd l = [0]) /\
  oi_near (lift4 flat) (on_numbers expo) (Fin 1%Qc) plain true 1 4 4 (rows4 (fun _ => fz 0)) [st11] (fz 12) (fz 0) (fz 0) (fz 1) 2 1 = Ok [].
Proof. split; [eexists; split; vm_compute; reflexivity|vm_compute; reflexivity]. Qed.

(** C224: at most the given number of stations, and the best *)
Theorem C224_best : forall sortp o l, sorts_pairs sortp -> numbers l -> NoDup (map snd l) -> 0 <= oi_max o -> oi_cross o = false -> best (oi_max o) l (oi_chosen sortp o l).
Proof. exact c224. Qed.
Print Assumptions C224_best.
Theorem C224_cross_validation : forall sortp o l, sorts_pairs sortp -> numbers l -> NoDup (map snd l) -> 0 <= oi_max o -> oi_cross o = true -> l <> [] -> (forall q i, In (Fin q, i) l -> (0 < q)%Qc) ->
  exists l', all_but_greatest l l' /\ best (oi_max o) l' (oi_chosen sortp o l).
Proof. exact c224_cross. Qed.
Print Assumptions C224_cross_validation.
Example C224_example : oi_chosen sort_pairs {| oi_d := fz 10; oi_h := CMV; oi_w := CMV; oi_wmin := CMV; oi_minrho := fz 0; oi_epsilon := fz 1; oi_gradient := CMV; oi_maxelev := CMV; oi_maxbytes := CMV;
    oi_soar := false; oi_land := false; oi_cross := true; oi_useens := false; oi_savediff := false; oi_max := 2; oi_minens := 5 |} [(fq (1 # 2), 0); (fq (3 # 4), 1); (fq (1 # 4), 2); (fq (2 # 3), 3)] = [3; 0].
Proof. vm_compute. reflexivity. Qed.

(** C225: the analysis.  False for members with a missing value anywhere *)
Theorem C225_missing_refuted : exists D E exq sortp inv nn ens o s minrho rf eps gr kind nPar locs pars lats lons elevs lafs d fs ss a b ci out t y x e q, oi_case D E exq inv nn o s minrho rf eps gr kind locs pars lats lons elevs lafs d fs ss a b ci /\ sorts_pairs sortp /\ nPar <= 3 /\
  oi_calibrator (lift4 E) (lift4 D) (on_numbers exq) (Fin rf) sortp inv nn ens o nPar locs pars lats lons elevs lafs d fs = Ok out /\ element fs t y x e (Fin q) /\ q <> missing_number /\ element out t y x e (Fin missing_number).
Proof. exact c225_missing. Qed.
Print Assumptions C225_missing_refuted.
Theorem C225_analysis_partial : forall D E exq sortp inv nn ens o s minrho rf eps gr kind nPar locs pars lats lons elevs lafs d fs ss a b ci, oi_case D E exq inv nn o s minrho rf eps gr kind locs pars lats lons elevs lafs d fs ss a b ci -> sorts_pairs sortp -> nPar <= 3 ->
  exists out, oi_calibrator (lift4 E) (lift4 D) (on_numbers exq) (Fin rf) sortp inv nn ens o nPar locs pars lats lons elevs lafs d fs = Ok out /\ shaped d out /\ forall t y x, 0 <= t < d_t d -> 0 <= y < d_y d -> 0 <= x < d_x d ->
  exists l us w, candidates D exq o s minrho rf kind d elevs ss a (b y x) y x l /\ best (oi_max o) l us /\ gains us (with_errors D o exq s eps a ci) (fun i => related D o exq s (a i) (b y x)) w /\
    (us = [] -> forall e v, 0 <= e < d_e d -> element fs t y x e v -> element out t y x e (if oi_savediff o then Fin missing_number else v)) /\
    (us <> [] -> forall e q ob bg, 0 <= e < d_e d -> element fs t y x e (Fin q) -> whole d fs t e -> departures fs t e ss us gr a b ob bg -> element out t y x e (Fin (q + over us (fun i => w i * (ob i - bg i)))%Qc)) /\
    (us <> [] -> forall e, 0 <= e < d_e d -> ~ whole d fs t e -> element out t y x e (Fin missing_number)).
Proof. exact c225_all. Qed.
Print Assumptions C225_analysis_partial.
Example C225_example : oi_case flat flat expo recip (fun _ => (0, 0)) plain ten (Q2Qc (1 # 10)) 1 1 0 None [at_lat 10] (fun _ _ => [fz 14]) [[fz 10; fz 15]] [[fz 0; fz 0]] [[fz 0; fz 0]] [[fz 1; fz 1]] (dims2 2 1 1) [row 2 1 [fz 8; fz 5]] [st10 (fz 14)] (fun _ => p_lat 10) two_points (fun _ => 1%Qc) /\
  oi_calibrator (lift4 flat) (lift4 flat) (on_numbers expo) (Fin 1%Qc) sort_pairs recip (fun _ => (0, 0)) (fun _ _ _ _ _ _ _ => Abort) plain 1 [at_lat 10] (fun _ _ => [fz 14]) [[fz 10; fz 15]] [[fz 0; fz 0]] [[fz 0; fz 0]] [[fz 1; fz 1]] (dims2 2 1 1) [row 2 1 [fz 8; fz 5]] = Ok [row 2 1 [fz 11; fq (23 # 3)]].
Proof. split; [apply (one_station 1 [[fz 8; fz 5]]); [apply row_shaped; reflexivity|intros l v [<-|[]] [<-|[<-|[]]] q [= <-] N; reflexivity]|fcalc]. Qed.

(** C226: one station *)
Theorem C226_one_station : forall D E exq sortp inv nn ens o s minrho rf eps gr kind nPar locs pars lats lons elevs lafs d fs st a b ci, oi_case D E exq inv nn o s minrho rf eps gr kind locs pars lats lons elevs lafs d fs [st] a b ci -> sorts_pairs sortp -> nPar <= 3 ->
  1 <= oi_max o -> acceptable o elevs st -> (0 <= ci 0%Z)%Qc ->
  exists out, oi_calibrator (lift4 E) (lift4 D) (on_numbers exq) (Fin rf) sortp inv nn ens o nPar locs pars lats lons elevs lafs d fs = Ok out /\ shaped d out /\
    forall t y x e q qb ob, 0 <= t < d_t d -> within d y x e -> whole d fs t e -> element fs t y x e (Fin q) -> element fs t (st_y st) (st_x st) e (Fin qb) -> st_obs st = Fin ob ->
      reach kind (rf * s_d s) d (along D (a 0%Z) (b y x)) st y x -> (minrho < related D o exq s (a 0%Z) (b y x))%Qc ->
      let k := (related D o exq s (a 0%Z) (b y x) / (1 + eps * eps * ci 0%Z))%Qc in
      (0 <= k <= 1)%Qc /\ element out t y x e (Fin (q + k * (ob - (qb + lapse gr a b 0%Z st)))%Qc).
Proof. exact c226. Qed.
Print Assumptions C226_one_station.
Example C226_example : oi_case flat flat expo recip (fun _ => (0, 0)) plain ten (Q2Qc (1 # 10)) 1 1 0 None [at_lat 10] (fun _ _ => [fz 14]) [[fz 10; fz 15]] [[fz 0; fz 0]] [[fz 0; fz 0]] [[fz 1; fz 1]] (dims2 2 1 1) [row 2 1 [fz 8; fz 5]] [st10 (fz 14)] (fun _ => p_lat 10) two_points (fun _ => 1%Qc) /\
  1 <= oi_max plain /\ acceptable plain [[fz 0; fz 0]] (st10 (fz 14)) /\ related flat plain expo ten (p_lat 10) (p_lat 15) = Q2Qc (8 # 9).
Proof.
  split; [apply (one_station 1 [[fz 8; fz 5]]); [apply row_shaped; reflexivity|intros l v [<-|[]] [<-|[<-|[]]] q [= <-] N; reflexivity]|]. split; [discriminate|]. split; [split; [intros K; apply (qz_inj 14 (-999)) in K; lia|split; [discriminate|]]|apply Qc_is_canon; vm_compute; reflexivity].
  intros m E N. injection E as <-. exfalso. apply N. reflexivity.
Qed.

(** C227: grid points without coordinates, and no observations *)
Theorem C227_coordinates_refuted : exists D exq sortp inv nn ens o rf locs pars lats lons elevs lafs d fs out t y x e q q', metric_like D /\ exponential exq /\ sorts_pairs sortp /\ oi_savediff o = false /\ shaped d fs /\
  (exists la, get2 lats y x = Ok la /\ missing la) /\ oi_calibrator (lift4 D) (lift4 D) (on_numbers exq) (Fin rf) sortp inv nn ens o 1 locs pars lats lons elevs lafs d fs = Ok out /\
  element fs t y x e (Fin q) /\ element out t y x e (Fin q') /\ q <> q'.
Proof. exact c227_refuted. Qed.
Print Assumptions C227_coordinates_refuted.
Theorem C227_no_observations_partial : forall gc ga ex rf sortp inv nn ens o nPar locs pars lats lons elevs lafs d fs, shaped d fs -> rect (d_y d) (d_x d) lats -> rect (d_y d) (d_x d) lons -> rect (d_y d) (d_x d) elevs -> rect (d_y d) (d_x d) lafs -> d_y d <= 1 \/ d_x d <= 1 -> nPar <= 3 ->
  (forall l, In l locs -> 0 <= fst (nn l) < d_y d /\ 0 <= snd (nn l) < d_x d /\ exists ob rest, pars 0 l = ob :: rest /\ missing ob) -> missing (oi_gradient o) \/ oi_gradient o = fz 0 -> oi_savediff o = false ->
  exists out, oi_calibrator gc ga ex rf sortp inv nn ens o nPar locs pars lats lons elevs lafs d fs = Ok out /\ shaped d out /\ forall t y x e v, 0 <= t < d_t d -> within d y x e -> element fs t y x e v -> element out t y x e v.
Proof. exact c227. Qed.
Print Assumptions C227_no_observations_partial.
Example C227_example : oi_calibrator (lift4 flat) (lift4 flat) (on_numbers expo) (Fin 1%Qc) sort_pairs recip (fun _ => (0, 0)) (fun _ _ _ _ _ _ _ => Abort) plain 1 [at_lat 10] (fun _ _ => [CMV]) [[fz 10; CMV]] [[fz 0; fz 0]] [[fz 0; fz 0]] [[fz 1; fz 1]] (dims2 2 1 1) [row 2 1 [fz 8; CMV]] = Ok [row 2 1 [fz 8; CMV]].
Proof. vm_compute. reflexivity. Qed.

(** C228: the new delta parameter.  Undefined without stations; missing members of the background count as numbers *)
Theorem C228_no_stations_refuted : exists c sigma eps nd old, oi_delta c sigma eps nd old [] = UB.
Proof. exact c228_empty. Qed.
Print Assumptions C228_no_stations_refuted.
Theorem C228_missing_member_refuted : exists o elevs f st ys mean v, oi_background o elevs 3 f st = Ok (ys, mean) /\ f_get f (st_y st) (st_x st) 1 = Ok v /\ missing v /\ znth ys 1 = Ok (vneg mean) /\ ~ missing mean /\ mean <> fz 0.
Proof. exact c228_missing. Qed.
Print Assumptions C228_missing_member_refuted.
Theorem C228_weighted_mean_partial : forall c sigma eps nd old gY, gY <> [] -> (forall r r', In r gY -> In r' gY -> zlen r = zlen r') -> spreads gY <> [] -> qsum (spreads gY) <> 0%Qc -> sigma <> 0%Qc -> eps <> 0%Qc -> (1 < c)%Qc -> (0 < nd)%Qc ->
  let evidence := (sigma * sigma / (eps * eps) / (qsum (spreads gY) / qlen (spreads gY)))%Qc in
  exists r, oi_delta (Fin c) (Fin sigma) (Fin eps) (Fin nd) (Fin old) gY = Ok (Fin r) /\ r = ((old * nd + evidence * (c - 1)) / (nd + (c - 1)))%Qc /\ ((old <= evidence)%Qc -> (old <= r <= evidence)%Qc) /\ ((evidence <= old)%Qc -> (evidence <= r <= old)%Qc).
Proof. exact c228. Qed.
Print Assumptions C228_weighted_mean_partial.
Example C228_example : spreads [[fz 1; fz (-1)]; [fz 2; CMV]] = [qz 2] /\ oi_delta (fz 3) (fz 2) (fz 1) (fz 2) (fz 4) [[fz 1; fz (-1)]; [fz 2; CMV]] = Ok (fz 3).
Proof. split; [vm_compute; f_equal; apply Qc_is_canon; reflexivity|fcalc]. Qed.

(** C230: the observations of the first time are those of all times *)
Theorem C230_time_refuted : exists D exq sortp inv nn ens o rf locs pars lats lons elevs lafs d fs out t y x e q q', metric_like D /\ exponential exq /\ sorts_pairs sortp /\ shaped d fs /\ 0 <= t < d_t d /\
  (forall l, In l locs -> exists ob rest, pars t l = ob :: rest /\ missing ob) /\ oi_calibrator (lift4 D) (lift4 D) (on_numbers exq) (Fin rf) sortp inv nn ens o 1 locs pars lats lons elevs lafs d fs = Ok out /\
  element fs t y x e (Fin q) /\ element out t y x e (Fin q') /\ q <> q'.
Proof. exact c230_refuted. Qed.
Print Assumptions C230_time_refuted.
Theorem C230_first_time_partial : forall gc ga ex rf sortp inv nn ens o nPar locs pars pars' lats lons elevs lafs d fs, (forall l, In l locs -> pars 0 l = pars' 0 l) ->
  oi_calibrator gc ga ex rf sortp inv nn ens o nPar locs pars lats lons elevs lafs d fs = oi_calibrator gc ga ex rf sortp inv nn ens o nPar locs pars' lats lons elevs lafs d fs.
Proof. exact c230. Qed.
Print Assumptions C230_first_time_partial.
Example C230_example : oi_calibrator (lift4 flat) (lift4 flat) (on_numbers expo) (Fin 1%Qc) sort_pairs recip (fun _ => (0, 0)) (fun _ _ _ _ _ _ _ => Abort) plain 1 [at_lat 10] (fun t _ => [fz (14 + t)]) [[fz 10]] [[fz 0]] [[fz 0]] [[fz 1]] (dims2 1 1 2) [row 1 1 [fz 8]; row 1 1 [fz 8]] = Ok [row 1 1 [fz 11]; row 1 1 [fz 11]].
Proof. fcalc. Qed.

(** C231: observations that agree with the background *)
Theorem C231_agreement : forall D E exq sortp inv nn ens o s minrho rf eps gr kind nPar locs pars lats lons elevs lafs d fs ss a b ci, oi_case D E exq inv nn o s minrho rf eps gr kind locs pars lats lons elevs lafs d fs ss a b ci -> sorts_pairs sortp -> nPar <= 3 -> oi_savediff o = false ->
  exists out, oi_calibrator (lift4 E) (lift4 D) (on_numbers exq) (Fin rf) sortp inv nn ens o nPar locs pars lats lons elevs lafs d fs = Ok out /\ shaped d out /\
    forall t e, 0 <= t < d_t d -> 0 <= e < d_e d -> whole d fs t e -> (forall i st ob, znth ss i = Ok st -> st_obs st = Fin ob -> ob <> missing_number -> exists qb, element fs t (st_y st) (st_x st) e (Fin qb) /\ ob = (qb + lapse gr a b i st)%Qc) ->
      forall y x v, 0 <= y < d_y d -> 0 <= x < d_x d -> element fs t y x e v -> element out t y x e v.
Proof. exact c231. Qed.
Print Assumptions C231_agreement.
Example C231_example : oi_case flat flat expo recip (fun _ => (0, 0)) plain ten (Q2Qc (1 # 10)) 1 1 0 None [at_lat 10] (fun _ _ => [fz 8]) [[fz 10; fz 15]] [[fz 0; fz 0]] [[fz 0; fz 0]] [[fz 1; fz 1]] (dims2 2 1 1) [row 2 1 [fz 8; fz 5]] [st10 (fz 8)] (fun _ => p_lat 10) two_points (fun _ => 1%Qc) /\
  oi_calibrator (lift4 flat) (lift4 flat) (on_numbers expo) (Fin 1%Qc) sort_pairs recip (fun _ => (0, 0)) (fun _ _ _ _ _ _ _ => Abort) plain 1 [at_lat 10] (fun _ _ => [fz 8]) [[fz 10; fz 15]] [[fz 0; fz 0]] [[fz 0; fz 0]] [[fz 1; fz 1]] (dims2 2 1 1) [row 2 1 [fz 8; fz 5]] = Ok [row 2 1 [fz 8; fz 5]].
Proof. split; [apply (one_station 1 [[fz 8; fz 5]]); [apply row_shaped; reflexivity|intros l v [<-|[]] [<-|[<-|[]]] q [= <-] N; reflexivity]|fcalc]. Qed.
