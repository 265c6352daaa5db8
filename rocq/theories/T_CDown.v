(** Grids of files and downscalers of the command-line client: C165-C171. *)
From Verif Require Import Base ListLib M_Stat S_Stat S_Search M_COpt M_CUtil S_CUtil M_CCal S_CCal P_CCal2 M_CTree S_CTree P_CTree M_CDown S_CDown P_CDown.
Local Open Scope Z_scope.

(** C165: each point of one grid gets a nearest point of another; the same point if the grids are the same *)
Theorem C165_nearest_points_partial : forall D srt iy ix ny nx ilats ilons olats olons, zero_at_itself D -> straight D -> sorts_items srt -> file_grid iy ix ilats ilons -> file_grid ny nx olats olons ->
  (exists i j la lo, point ilats ilons i j la lo) ->
  exists m, compute_nearest (lift4 D) srt ilats ilons olats olons = Ok m /\ nearest_map D ilats ilons ny nx olats olons m.
Proof. exact c165. Qed.
Print Assumptions C165_nearest_points_partial.
Theorem C165_same_grid : forall gc srt ny nx lats lons, grid ny nx lats lons -> (forall i j v, get2 lats i j = Ok v -> v <> NaN) -> (forall i j v, get2 lons i j = Ok v -> v <> NaN) ->
  exists m, compute_nearest gc srt lats lons lats lons = Ok m /\ rect ny nx m /\ forall i j, 0 <= i < ny -> 0 <= j < nx -> get2 m i j = Ok (i, j).
Proof. exact c165_same. Qed.
Print Assumptions C165_same_grid.
Example C165_example : compute_nearest (lift4 l1) sort_items [[fz 60; fz 61]] [[fz 5; fz 6]] [[fz 59; NaN; fz 62]] [[fz 5; fz 5; fz 6]] = Ok [[(0, 0); (-999, -999); (0, 1)]] /\
  compute_nearest (lift4 l1) sort_items [[fz 60; fz 60]] [[fz 5; fz 5]] [[fz 60; fz 60]] [[fz 5; fz 5]] = Ok [[(0, 0); (0, 1)]].
Proof. split; vcalc. Qed.

(** C166: the cache does not change what is found, whatever was done with the files before *)
Theorem C166_cache : forall gc srt ops s a b f g, foldM (step gc srt) start ops = Ok s -> znth (cs_files s) a = Ok f -> znth (cs_files s) b = Ok g ->
  (r <- get_nearest gc srt s a b ;; Ok (fst r)) = compute_nearest gc srt (fl_lats f) (fl_lons f) (fl_lats g) (fl_lons g).
Proof. exact c166. Qed.
Print Assumptions C166_cache.
Example C166_example :
  (s <- foldM (step (lift4 l1) sort_items) start
    [NewFile; SetLats 0 [[fz 60; fz 61]]; SetLons 0 [[fz 5; fz 6]]; NewFile; SetLats 1 [[fz 61]]; SetLons 1 [[fz 6]]; Nearest 0 1; CopyFile 0; SetLats 0 [[fz 61; fz 60]]; SetLons 2 [[fz 190; fz 6]]] ;;
   f <- znth (cs_files s) 0 ;; g <- znth (cs_files s) 1 ;; r <- get_nearest (lift4 l1) sort_items s 0 1 ;; Ok (fst r, cs_cache s, map fl_tag (cs_files s))) =
  Ok ([[(0, 0)]], [(2, 5, [[(0, 1)]])], [6; 5; 7]).
Proof. vcalc. Qed.

(** C167: the coordinates of a file: latitudes as given, longitudes moved to [-180, 180].  Longitude 0 is undefined *)
Theorem C167_longitudes_refuted : exists s k g, rect 1 1 g /\ (forall i j v, get2 g i j = Ok v -> within_limit 180 v) /\ set_lons s k g = UB.
Proof. exact c167_refuted. Qed.
Print Assumptions C167_longitudes_refuted.
Theorem C167_longitudes_partial : forall s k f ny nx g, znth (cs_files s) k = Ok f -> 0 < ny -> 0 < nx -> fl_lons f = [] \/ rect ny nx (fl_lats f) -> rect ny nx g ->
  ((forall i j v, get2 g i j = Ok v -> within_limit 360 v /\ not_zero v) -> exists s' f', set_lons s k g = Ok (true, s') /\ znth (cs_files s') k = Ok f' /\ fl_lats f' = fl_lats f /\ rect ny nx (fl_lons f') /\
    (forall i j v, get2 g i j = Ok v -> exists w, get2 (fl_lons f') i j = Ok w /\ wrapped v w) /\ forall j, j <> k -> znth (cs_files s') j = znth (cs_files s) j) /\
  ((exists i j v, get2 g i j = Ok v /\ ~ within_limit 360 v) -> set_lons s k g = Abort).
Proof. exact c167_lons. Qed.
Print Assumptions C167_longitudes_partial.
Theorem C167_latitudes : forall s k f ny nx g, znth (cs_files s) k = Ok f -> 0 < ny -> 0 < nx -> fl_lats f = [] \/ rect ny nx (fl_lats f) -> rect ny nx g ->
  ((forall i j v, get2 g i j = Ok v -> within_limit 90 v) -> exists s' f', set_lats s k g = Ok (true, s') /\ znth (cs_files s') k = Ok f' /\ fl_lats f' = g /\ fl_lons f' = fl_lons f /\ forall j, j <> k -> znth (cs_files s') j = znth (cs_files s) j) /\
  ((exists i j v, get2 g i j = Ok v /\ ~ within_limit 90 v) -> set_lats s k g = Abort).
Proof. exact c167_lats. Qed.
Print Assumptions C167_latitudes.
Theorem C167_sizes : forall s k f ny nx gy gx g, znth (cs_files s) k = Ok f -> 0 < ny -> 0 < nx -> rect ny nx (fl_lats f) -> 0 < gy -> rect gy gx g -> gy <> ny \/ gx <> nx ->
  set_lats s k g = Ok (false, s) /\ (fl_lons f <> [] -> set_lons s k g = Ok (false, s)).
Proof. exact c167_sizes. Qed.
Print Assumptions C167_sizes.
Example C167_example : let s := {| cs_files := [{| fl_lats := [[fz 60; fz 61; fz 62]]; fl_lons := []; fl_tag := 0 |}]; cs_next := 1; cs_cache := [] |} in
  set_lons s 0 [[fz 190; fz (-200); fz (-45)]] = Ok (true, {| cs_files := [{| fl_lats := [[fz 60; fz 61; fz 62]]; fl_lons := [[fz (-170); fz 160; fz (-45)]]; fl_tag := 1 |}]; cs_next := 2; cs_cache := [] |}) /\
  set_lats s 0 [[fz 91; fz 0; fz 0]] = Abort /\ set_lats s 0 [[fz 1]; [fz 2]; [fz 3]] = Ok (false, s).
Proof. split; [vcalc|]. split; vcalc. Qed.

(** C168: the nearest neighbour *)
Theorem C168_nearest_neighbour : forall D di d ilats ilons olats olons m ifs ofs, grid (d_y di) (d_x di) ilats ilons -> grid (d_y d) (d_x d) olats olons -> nearest_map D ilats ilons (d_y d) (d_x d) olats olons m ->
  shaped di ifs -> shaped d ofs -> d_t di = d_t d -> d_e d <= d_e di ->
  exists out, downscale (d_t di) d ofs (nearest_downscaler m ifs) = Ok (true, out) /\ shaped d out /\
  forall y x la lo, get2 olats y x = Ok la -> get2 olons y x = Ok lo ->
    (missing la \/ missing lo -> forall t e, 0 <= t < d_t d -> 0 <= e < d_e d -> element out t y x e (Fin missing_number)) /\
    (forall lat lon, point olats olons y x lat lon -> exists a b, is_nearest (D lat lon) ilats ilons a b /\
      forall t e, 0 <= t < d_t d -> 0 <= e < d_e d -> exists v, element ifs t a b e v /\ element out t y x e v).
Proof. exact c168. Qed.
Print Assumptions C168_nearest_neighbour.
Theorem C168_too_few_members : forall D di d ilats ilons olats olons m ifs ofs, grid (d_y di) (d_x di) ilats ilons -> grid (d_y d) (d_x d) olats olons -> nearest_map D ilats ilons (d_y d) (d_x d) olats olons m ->
  shaped di ifs -> shaped d ofs -> d_t di = d_t d -> 0 < d_t d -> d_e di < d_e d -> (exists y x lat lon, point olats olons y x lat lon) ->
  downscale (d_t di) d ofs (nearest_downscaler m ifs) = Abort.
Proof. exact c168_members. Qed.
Print Assumptions C168_too_few_members.
Theorem C168_number_of_times : forall n d ofs core, n <> d_t d -> downscale n d ofs core = Ok (false, ofs).
Proof. exact c168_times. Qed.
Print Assumptions C168_number_of_times.
Example C168_example : let m := [[(0, 1); (-999, -999)]] in let d := {| d_y := 1; d_x := 2; d_e := 1; d_t := 1 |} in
  let f a b := {| f_values := [a; b]; f_ny := 1; f_nx := 2; f_ne := 1 |} in
  downscale 1 d [f CMV CMV] (nearest_downscaler m [f (fz 3) (fz 4)]) = Ok (true, [f (fz 4) CMV]) /\
  downscale 2 d [f CMV CMV] (nearest_downscaler m [f (fz 3) (fz 4)]) = Ok (false, [f CMV CMV]).
Proof. split; vcalc. Qed.

(** C169: statistics of the points for which the output point is the nearest *)
Theorem C169_upscale_partial : forall D srt E st (q : Qc) di d ilats ilons olats olons ifs ofs, zero_at_itself D -> straight D -> sorts_items srt -> file_grid (d_y di) (d_x di) ilats ilons -> file_grid (d_y d) (d_x d) olats olons ->
  (exists i j la lo, point olats olons i j la lo) -> shaped di ifs -> shaped d ofs -> d_t di = d_t d -> d_e d <= d_e di -> (st = CQuantile -> 0 <= q <= 1)%Qc ->
  exists m out, downscale (d_t di) d ofs (upscale (lift4 D) srt E st (Fin q) ilats ilons olats olons ifs) = Ok (true, out) /\ shaped d out /\
  nearest_map D olats olons (d_y di) (d_x di) ilats ilons m /\
  forall t y x e, 0 <= t < d_t d -> within d y x e -> exists l vs w,
    NoDup l /\ (forall p, In p l <-> get2 m (fst p) (snd p) = Ok (y, x)) /\ values_at ifs t e l vs /\ element out t y x e w /\ client_statistic E st q (present vs) w.
Proof. exact c169. Qed.
Print Assumptions C169_upscale_partial.
Example C169_example : let d := {| d_y := 1; d_x := 2; d_e := 1; d_t := 1 |} in
  let f a b := {| f_values := [a; b]; f_ny := 1; f_nx := 2; f_ne := 1 |} in
  downscale 1 d [f CMV CMV] (upscale (lift4 l1) sort_items E0 CMean (fz 0) [[fz 60]; [fz 61]; [fz 62]; [fz 70]] [[fz 5]; [fz 5]; [fz 5]; [fz 5]] [[fz 61; fz 80]] [[fz 5; fz 5]]
    [{| f_values := [fz 1; CMV; fz 5; fz 9]; f_ny := 4; f_nx := 1; f_ne := 1 |}]) = Ok (true, [f (fz 5) CMV]).
Proof. vm_compute. do 5 f_equal. all: veq. Qed.

(** C170: the mean of the points with the most similar elevations.  Undefined for output points without coordinates *)
Theorem C170_smart_refuted : exists D sortp di d ilats ilons ielevs olats olons oelevs m ifs ofs, sorts_pairs sortp /\ grid (d_y di) (d_x di) ilats ilons /\ rect (d_y di) (d_x di) ielevs /\ grid (d_y d) (d_x d) olats olons /\ rect (d_y d) (d_x d) oelevs /\
  nearest_map D ilats ilons (d_y d) (d_x d) olats olons m /\ shaped di ifs /\ shaped d ofs /\ d_t di = d_t d /\ d_e d = d_e di /\
  downscale (d_t di) d ofs (smart_downscaler sortp 3 5 CMV (d_y di) (d_x di) ielevs oelevs m ifs) = UB.
Proof. exact c170_refuted. Qed.
Print Assumptions C170_smart_refuted.
Theorem C170_smart_partial : forall D sortp radius num minElevDiff di d ilats ilons ielevs olats olons oelevs m ifs ofs, sorts_pairs sortp -> grid (d_y di) (d_x di) ilats ilons -> rect (d_y di) (d_x di) ielevs -> grid (d_y d) (d_x d) olats olons -> rect (d_y d) (d_x d) oelevs ->
  nearest_map D ilats ilons (d_y d) (d_x d) olats olons m -> (forall y x, 0 <= y < d_y d -> 0 <= x < d_x d -> exists lat lon, point olats olons y x lat lon) ->
  shaped di ifs -> shaped d ofs -> d_t di = d_t d -> d_e d <= d_e di -> 0 <= num -> 0 <= radius ->
  exists out, downscale (d_t di) d ofs (smart_downscaler sortp radius num minElevDiff (d_y di) (d_x di) ielevs oelevs m ifs) = Ok (true, out) /\ shaped d out /\
  forall y x lat lon oelev, point olats olons y x lat lon -> get2 oelevs y x = Ok oelev -> exists a b nn l, is_nearest (D lat lon) ilats ilons a b /\ get2 ielevs a b = Ok nn /\
    (missing oelev \/ no_elev_diff minElevDiff oelev nn -> l = [(a, b)]) /\
    (forall o, oelev = Fin o -> o <> missing_number -> ~ no_elev_diff minElevDiff oelev nn -> most_similar (d_y di) (d_x di) radius num a b ielevs o l) /\
    forall t e, 0 <= t < d_t d -> 0 <= e < d_e d -> exists vs w, values_at ifs t e l vs /\ element out t y x e w /\
      (present vs = [] -> w = Fin missing_number) /\ (present vs <> [] -> w = Fin (qmean (present vs))).
Proof. exact c170. Qed.
Print Assumptions C170_smart_partial.
Example C170_example : sorts_pairs sort_pairs /\
  downscale 1 (dims1 1) [field1 CMV] (smart_downscaler sort_pairs 1 2 (fz 10) 1 4 [[fz 0; fz 200; fz 120; fz 100]] [[fz 110]] [[(0, 1)]] [{| f_values := [fz 1; fz 2; fz 4; fz 8]; f_ny := 1; f_nx := 4; f_ne := 1 |}]) = Ok (true, [field1 (fz 3)]) /\
  downscale 1 (dims1 1) [field1 CMV] (smart_downscaler sort_pairs 1 2 (fz 90) 1 4 [[fz 0; fz 200; fz 120; fz 100]] [[fz 110]] [[(0, 1)]] [{| f_values := [fz 1; fz 2; fz 4; fz 8]; f_ny := 1; f_nx := 4; f_ne := 1 |}]) = Ok (true, [field1 (fz 2)]).
Proof. split; [exact sort_pairs_ok|]. split; vm_compute; do 5 f_equal; veq. Qed.

(** C171: pressure follows the standard atmosphere from the elevation of the nearest point; an output point without coordinates stops the program *)
Theorem C171_pressure : forall D (expo : Qc -> Qc) di d ilats ilons ielevs olats olons oelevs m ifs ofs, grid (d_y di) (d_x di) ilats ilons -> rect (d_y di) (d_x di) ielevs -> grid (d_y d) (d_x d) olats olons -> rect (d_y d) (d_x d) oelevs ->
  nearest_map D ilats ilons (d_y d) (d_x d) olats olons m -> shaped di ifs -> shaped d ofs -> d_t di = d_t d -> d_e d <= d_e di ->
  ((forall y x, 0 <= y < d_y d -> 0 <= x < d_x d -> exists lat lon, point olats olons y x lat lon) ->
   exists out, downscale (d_t di) d ofs (pressure_downscaler (lift1 expo) ielevs oelevs m ifs) = Ok (true, out) /\ shaped d out /\
   forall y x lat lon oelev, point olats olons y x lat lon -> get2 oelevs y x = Ok oelev -> exists a b nn, is_nearest (D lat lon) ilats ilons a b /\ get2 ielevs a b = Ok nn /\
    forall t e, 0 <= t < d_t d -> 0 <= e < d_e d -> exists p w, element ifs t a b e p /\ element out t y x e w /\
      (missing oelev \/ missing nn -> w = p) /\
      (~ missing oelev -> ~ missing nn -> missing p -> w = Fin missing_number) /\
      (forall o n q, oelev = Fin o -> nn = Fin n -> p = Fin q -> ~ missing oelev -> ~ missing nn -> ~ missing p -> w = Fin (q * expo (Q2Qc (-121 # 1000000) * (o - n)))%Qc)) /\
  ((exists y x, 0 <= y < d_y d /\ 0 <= x < d_x d /\ forall lat lon, ~ point olats olons y x lat lon) -> 0 < d_t d -> 0 < d_e d ->
   downscale (d_t di) d ofs (pressure_downscaler (lift1 expo) ielevs oelevs m ifs) = Abort).
Proof. exact c171. Qed.
Print Assumptions C171_pressure.
Example C171_example : downscale 1 (dims1 1) [field1 CMV] (pressure_downscaler (lift1 (fun q => 1 + q)%Qc) [[fz 0; fz 50]] [[fz 1050]] [[(0, 1)]] [{| f_values := [fz 900; fz 1000]; f_ny := 1; f_nx := 2; f_ne := 1 |}]) = Ok (true, [field1 (fz 879)]) /\
  downscale 1 (dims1 1) [field1 CMV] (pressure_downscaler (lift1 (fun q => 1 + q)%Qc) [[fz 0; CMV]] [[fz 1050]] [[(0, 1)]] [{| f_values := [fz 900; fz 1000]; f_ny := 1; f_nx := 2; f_ne := 1 |}]) = Ok (true, [field1 (fz 1000)]).
Proof. split; vm_compute; do 5 f_equal; veq. Qed.
