(** The gradient downscaler of the command-line client: C178-C181. *)
From Coq Require Import Sorted.
From Verif Require Import Base ListLib M_Stat S_Stat M_COpt M_CUtil S_CUtil M_CCal S_CCal M_CCal2 S_CCal2 M_CTree S_CTree M_CDown S_CDown M_CGradient S_CGradient P_CGradient.
Local Open Scope Z_scope.

(** C178: the elevation gradient is the regression slope of the neighbourhood.  Not so if the sum of the squared elevations is the square of their sum, as for a single hill by the sea *)
Theorem C178_elevation_gradient_refuted : exists o ielevs ilafs oelevs olafs vs minDiff minLaf default minLafDiff minSea ws,
  setting east dims3 (dims1 1) (row3 (fz 60) (fz 60) (fz 60)) (row3 (fz 10) (fz 11) (fz 12)) ielevs ilafs [[fz 60]] [[fz 10]] oelevs olafs [[(0, 0)]] [vs] [vs] [field1 CMV] o minDiff minLaf default minLafDiff minSea ws /\
  all_points (dims1 1) [[fz 60]] [[fz 10]] /\ g_save o = SaveElev /\ quantity (g_constant o) = None /\ quantity (g_min o) = None /\ quantity (g_max o) = None /\
  (let nb := [(0, 0); (0, 1); (0, 2)] in let l := flat_map (fun p => elev_pair (fun v => v) minLaf (at2 ielevs p) (atf vs 0 p) (at2 ilafs p)) nb in
   neighbours 1 3 (g_radius o) 0 0 nb /\ enough (g_min_num o) minDiff l /\ ~ best_slope l 0 /\
   forall expo lg vmin vmax, downscale 1 (dims1 1) [field1 CMV] (gradient_downscaler (lift1 expo) lg o vmin vmax ielevs ilafs oelevs olafs [[(0, 0)]] [vs] [vs]) = Ok (true, [field1 (Fin 0%Qc)])).
Proof. exact c178_refuted. Qed.
Print Assumptions C178_elevation_gradient_refuted.
Theorem C178_elevation_gradient_partial : forall D expo lg vmin vmax di d ilats ilons ielevs ilafs olats olons oelevs olafs m ifs gfs ofs o minDiff minLaf default minLafDiff minSea ws, setting D di d ilats ilons ielevs ilafs olats olons oelevs olafs m ifs gfs ofs o minDiff minLaf default minLafDiff minSea ws -> all_points d olats olons -> g_save o = SaveElev ->
  exists out, downscale (d_t di) d ofs (gradient_downscaler (lift1 expo) lg o vmin vmax ielevs ilafs oelevs olafs m ifs gfs) = Ok (true, out) /\ shaped d out /\
  forall t y x e lat lon, 0 <= t < d_t d -> within d y x e -> point olats olons y x lat lon -> exists a b gfd v w,
    is_nearest (D lat lon) ilats ilons a b /\ znth gfs t = Ok gfd /\ element ifs t a b e v /\ element out t y x e w /\
    (missing v -> w = v) /\
    (~ missing v -> exists nb g, neighbours (d_y di) (d_x di) (g_radius o) a b nb /\ w = Fin g /\
      let l := flat_map (fun p => elev_pair (if g_log o then lg else fun v => v) minLaf (at2 ielevs p) (atf gfd e p) (at2 ilafs p)) nb in
      ((quantity (g_constant o) = None -> not_unstable l) -> elev_rule o minDiff default l g)).
Proof. exact c178. Qed.
Print Assumptions C178_elevation_gradient_partial.
Example C178_example : let o := {| g_constant := CMV; g_radius := 3; g_min_diff := fz 30; g_default := fz 0; g_min := CMV; g_max := CMV; g_min_laf := fz 0; g_min_num := 2;
    g_laf_radius := 0; g_min_laf_diff := fq (1 # 10); g_min_sea := fz 0; g_laf_radii := []; g_laf_weights := []; g_laf_lo := CMV; g_laf_hi := CMV; g_log := false; g_limit := false; g_save := SaveElev |} in
  setting east dims3 (dims1 1) (row3 (fz 60) (fz 60) (fz 60)) (row3 (fz 10) (fz 11) (fz 12)) (row3 (fz 0) (fz 100) (fz 200)) (row3 (fz 1) (fz 1) CMV) [[fz 60]] [[fz 10]] [[fz 50]] [[fz 1]] [[(0, 0)]]
    [field3 (fz 280) (fz 270) (fz 257)] [field3 (fz 280) (fz 270) (fz 257)] [field1 CMV] o (qz 30) (qz 0) (qz 0) (Q2Qc (1 # 10)) (qz 0) [] /\ all_points (dims1 1) [[fz 60]] [[fz 10]] /\
  downscale 1 (dims1 1) [field1 CMV] (gradient_downscaler (fun v => v) (fun v => v) o CMV CMV (row3 (fz 0) (fz 100) (fz 200)) (row3 (fz 1) (fz 1) CMV) [[fz 50]] [[fz 1]] [[(0, 0)]]
    [field3 (fz 280) (fz 270) (fz 257)] [field3 (fz 280) (fz 270) (fz 257)]) = Ok (true, [field1 (Fin (Q2Qc (-23 # 200)))]).
Proof. split; [apply demo; reflexivity|]. split; [exact demo_points|]. vm_compute; do 6 f_equal; veq. Qed.

(** C179: the gradient per land fraction is the weighted mean over the neighbourhoods.  It is not kept within its documented limits, and it depends on the order of the neighbourhoods *)
Theorem C179_land_gradient_limits_refuted : exists o ielevs ilafs oelevs olafs vs minDiff minLaf default minLafDiff minSea ws hi q,
  setting east dims3 (dims1 1) (row3 (fz 60) (fz 60) (fz 60)) (row3 (fz 10) (fz 11) (fz 12)) ielevs ilafs [[fz 60]] [[fz 10]] oelevs olafs [[(0, 0)]] [vs] [vs] [field1 CMV] o minDiff minLaf default minLafDiff minSea ws /\
  all_points (dims1 1) [[fz 60]] [[fz 10]] /\ g_save o = SaveLaf /\ g_laf_hi o = Fin hi /\ hi <> missing_number /\ (hi < q)%Qc /\
  forall expo lg vmin vmax, downscale 1 (dims1 1) [field1 CMV] (gradient_downscaler (lift1 expo) lg o vmin vmax ielevs ilafs oelevs olafs [[(0, 0)]] [vs] [vs]) = Ok (true, [field1 (Fin q)]).
Proof. exact c179_refuted_bound. Qed.
Print Assumptions C179_land_gradient_limits_refuted.
Theorem C179_land_gradient_order_refuted : exists ielevs ilafs oelevs olafs vs (f : list Z -> gopts) r r' q q', q <> q' /\
  (forall l, g_laf_radii (f l) = l /\ g_laf_weights (f l) = [fz 1; fz 1] /\ g_save (f l) = SaveLaf) /\
  (forall l, zlen l = 2 -> exists minDiff minLaf default minLafDiff minSea ws, setting east dims3 (dims1 1) (row3 (fz 60) (fz 60) (fz 60)) (row3 (fz 10) (fz 11) (fz 12)) ielevs ilafs [[fz 60]] [[fz 10]] oelevs olafs [[(0, 0)]] [vs] [vs] [field1 CMV] (f l) minDiff minLaf default minLafDiff minSea ws) /\
  forall expo lg vmin vmax,
    downscale 1 (dims1 1) [field1 CMV] (gradient_downscaler (lift1 expo) lg (f [r; r']) vmin vmax ielevs ilafs oelevs olafs [[(0, 0)]] [vs] [vs]) = Ok (true, [field1 (Fin q)]) /\
    downscale 1 (dims1 1) [field1 CMV] (gradient_downscaler (lift1 expo) lg (f [r'; r]) vmin vmax ielevs ilafs oelevs olafs [[(0, 0)]] [vs] [vs]) = Ok (true, [field1 (Fin q')]).
Proof. exact c179_refuted_order. Qed.
Print Assumptions C179_land_gradient_order_refuted.
Theorem C179_land_gradient_partial : forall D expo lg vmin vmax di d ilats ilons ielevs ilafs olats olons oelevs olafs m ifs gfs ofs o minDiff minLaf default minLafDiff minSea ws, setting D di d ilats ilons ielevs ilafs olats olons oelevs olafs m ifs gfs ofs o minDiff minLaf default minLafDiff minSea ws -> all_points d olats olons -> g_save o = SaveLaf ->
  (0 < minLafDiff)%Qc -> StronglySorted Z.le (g_laf_radii o) -> Forall (fun w => 0 < w)%Qc ws ->
  exists out, downscale (d_t di) d ofs (gradient_downscaler (lift1 expo) lg o vmin vmax ielevs ilafs oelevs olafs m ifs gfs) = Ok (true, out) /\ shaped d out /\
  forall t y x e lat lon, 0 <= t < d_t d -> within d y x e -> point olats olons y x lat lon -> exists a b ifd gfd v w,
    is_nearest (D lat lon) ilats ilons a b /\ znth ifs t = Ok ifd /\ znth gfs t = Ok gfd /\ element ifs t a b e v /\ element out t y x e w /\
    (missing v -> w = v) /\
    (~ missing v -> exists nb g, neighbours (d_y di) (d_x di) (g_radius o) a b nb /\
      (let l := flat_map (fun p => elev_pair (if g_log o then lg else fun v => v) minLaf (at2 ielevs p) (atf gfd e p) (at2 ilafs p)) nb in
       (quantity (g_constant o) = None -> not_unstable l) -> elev_rule o minDiff default l g) /\
      laf_rule (d_y di) (d_x di) a b minLafDiff minSea g (at2 ielevs) (at2 ilafs) (atf ifd e) (g_laf_radii o) ws w).
Proof. exact c179. Qed.
Print Assumptions C179_land_gradient_partial.
Example C179_example : let o := with_radii [1; 2] in
  setting east dims3 (dims1 1) (row3 (fz 60) (fz 60) (fz 60)) (row3 (fz 10) (fz 11) (fz 12)) (row3 (fz 0) (fz 0) (fz 0)) (row3 (fz 1) (fq (1 # 2)) (fz 0)) [[fz 60]] [[fz 10]] [[fz 0]] [[fz 1]] [[(0, 0)]]
    [field3 (fz 10) (fz 6) (fz 0)] [field3 (fz 10) (fz 6) (fz 0)] [field1 CMV] o (qz 30) (qz 0) (qz 0) (Q2Qc (1 # 10)) (qz 0) [qz 1; qz 1] /\ StronglySorted Z.le (g_laf_radii o) /\
  downscale 1 (dims1 1) [field1 CMV] (gradient_downscaler (fun v => v) (fun v => v) o CMV CMV (row3 (fz 0) (fz 0) (fz 0)) (row3 (fz 1) (fq (1 # 2)) (fz 0)) [[fz 0]] [[fz 1]] [[(0, 0)]]
    [field3 (fz 10) (fz 6) (fz 0)] [field3 (fz 10) (fz 6) (fz 0)]) = Ok (true, [field1 (fz 9)]).
Proof. split; [apply demo; reflexivity|]. split; [repeat constructor; discriminate|]. vm_compute; do 6 f_equal; veq. Qed.

(** C180: the value is moved along the gradients, unless it leaves the range of the variable; every output point needs coordinates *)
Theorem C180_moved_value : forall D expo lg vmin vmax di d ilats ilons ielevs ilafs olats olons oelevs olafs m ifs gfs ofs o minDiff minLaf default minLafDiff minSea ws, setting D di d ilats ilons ielevs ilafs olats olons oelevs olafs m ifs gfs ofs o minDiff minLaf default minLafDiff minSea ws -> all_points d olats olons -> g_save o = SaveNothing -> g_limit o = false ->
  (0 < minLafDiff)%Qc -> StronglySorted Z.le (g_laf_radii o) -> Forall (fun w => 0 < w)%Qc ws ->
  exists out, downscale (d_t di) d ofs (gradient_downscaler (lift1 expo) lg o vmin vmax ielevs ilafs oelevs olafs m ifs gfs) = Ok (true, out) /\ shaped d out /\
  forall t y x e lat lon, 0 <= t < d_t d -> within d y x e -> point olats olons y x lat lon -> exists a b ifd gfd v w,
    is_nearest (D lat lon) ilats ilons a b /\ znth ifs t = Ok ifd /\ znth gfs t = Ok gfd /\ element ifs t a b e v /\ element out t y x e w /\
    (missing v -> w = v) /\
    (forall q, v = Fin q -> ~ missing v -> exists nb g l c, neighbours (d_y di) (d_x di) (g_radius o) a b nb /\
      (let l := flat_map (fun p => elev_pair (if g_log o then lg else fun v => v) minLaf (at2 ielevs p) (atf gfd e p) (at2 ilafs p)) nb in
       (quantity (g_constant o) = None -> not_unstable l) -> elev_rule o minDiff default l g) /\
      laf_rule (d_y di) (d_x di) a b minLafDiff minSea g (at2 ielevs) (at2 ilafs) (atf ifd e) (g_laf_radii o) ws l /\
      laf_of_point (d_y d) (d_x d) (g_laf_radius o) y x olafs c /\
      w = Fin (allowed vmin vmax q (moved expo (g_log o) q g (at2 oelevs (y, x)) (at2 ielevs (a, b)) l c (at2 ilafs (a, b))))).
Proof. exact c180. Qed.
Print Assumptions C180_moved_value.
Theorem C180_coordinates_needed : forall D expo lg vmin vmax di d ilats ilons ielevs ilafs olats olons oelevs olafs m ifs gfs ofs o minDiff minLaf default minLafDiff minSea ws, setting D di d ilats ilons ielevs ilafs olats olons oelevs olafs m ifs gfs ofs o minDiff minLaf default minLafDiff minSea ws -> 0 < d_t d ->
  (exists y x, 0 <= y < d_y d /\ 0 <= x < d_x d /\ forall lat lon, ~ point olats olons y x lat lon) ->
  downscale (d_t di) d ofs (gradient_downscaler (lift1 expo) lg o vmin vmax ielevs ilafs oelevs olafs m ifs gfs) = Abort.
Proof. exact c180_coordinates. Qed.
Print Assumptions C180_coordinates_needed.
Example C180_example : let o := {| g_constant := fz 1; g_radius := 3; g_min_diff := fz 30; g_default := fz 0; g_min := CMV; g_max := CMV; g_min_laf := fz 0; g_min_num := 2;
    g_laf_radius := 0; g_min_laf_diff := fq (1 # 10); g_min_sea := fz 0; g_laf_radii := [1; 2]; g_laf_weights := [fz 1; fz 1]; g_laf_lo := CMV; g_laf_hi := CMV; g_log := false; g_limit := false; g_save := SaveNothing |} in
  setting east dims3 (dims1 1) (row3 (fz 60) (fz 60) (fz 60)) (row3 (fz 10) (fz 11) (fz 12)) (row3 (fz 0) (fz 0) (fz 0)) (row3 (fz 1) (fq (1 # 2)) (fz 0)) [[fz 60]] [[fz 10]] [[fz 2]] [[fz 0]] [[(0, 0)]]
    [field3 (fz 10) (fz 6) (fz 0)] [field3 (fz 10) (fz 6) (fz 0)] [field1 CMV] o (qz 30) (qz 0) (qz 0) (Q2Qc (1 # 10)) (qz 0) [qz 1; qz 1] /\
  let f vmin vmax := downscale 1 (dims1 1) [field1 CMV] (gradient_downscaler (fun v => v) (fun v => v) o vmin vmax (row3 (fz 0) (fz 0) (fz 0)) (row3 (fz 1) (fq (1 # 2)) (fz 0)) [[fz 2]] [[fz 0]] [[(0, 0)]]
    [field3 (fz 10) (fz 6) (fz 0)] [field3 (fz 10) (fz 6) (fz 0)]) in
  f CMV CMV = Ok (true, [field1 (fz 3)]) /\ f (fz 4) CMV = Ok (true, [field1 (fz 10)]) /\ f (fz 0) (fz 5) = Ok (true, [field1 (fz 3)]).
Proof. split; [apply demo; reflexivity|]. split; [vm_compute; do 6 f_equal; veq|]. split; [vm_compute; do 6 f_equal; veq|]. vm_compute; do 6 f_equal; veq. Qed.

(** C181: limited values are in the range of the neighbourhood.  A value in this range may still be changed: a maximum that comes first is not seen *)
Theorem C181_limit_refuted : exists o ielevs ilafs oelevs olafs vs minDiff minLaf default minLafDiff minSea ws mn mx u,
  setting east dims3 (dims1 1) (row3 (fz 60) (fz 60) (fz 60)) (row3 (fz 10) (fz 11) (fz 12)) ielevs ilafs [[fz 60]] [[fz 10]] oelevs olafs [[(0, 0)]] [vs] [vs] [field1 CMV] o minDiff minLaf default minLafDiff minSea ws /\
  all_points (dims1 1) [[fz 60]] [[fz 10]] /\ g_save o = SaveNothing /\ g_limit o = true /\
  (let l := present (map (atf vs 0) [(0, 0); (0, 1); (0, 2)]) in neighbours 1 3 (g_radius o) 0 0 [(0, 0); (0, 1); (0, 2)] /\ is_min l mn /\ is_max l mx /\ (mn < u < mx)%Qc) /\
  u = moved (fun x => x) false (qz 5) (qz (-1)) (at2 oelevs (0, 0)) (at2 ielevs (0, 0)) CMV None CMV /\ g_constant o = fz (-1) /\ g_laf_radii o = [] /\ atf vs 0 (0, 0) = fz 5 /\
  forall expo lg, downscale 1 (dims1 1) [field1 CMV] (gradient_downscaler (lift1 expo) lg o CMV CMV ielevs ilafs oelevs olafs [[(0, 0)]] [vs] [vs]) = Ok (true, [field1 (Fin mn)]).
Proof. exact c181_refuted. Qed.
Print Assumptions C181_limit_refuted.
Theorem C181_limit_partial : forall D expo lg vmin vmax di d ilats ilons ielevs ilafs olats olons oelevs olafs m ifs gfs ofs o minDiff minLaf default minLafDiff minSea ws, setting D di d ilats ilons ielevs ilafs olats olons oelevs olafs m ifs gfs ofs o minDiff minLaf default minLafDiff minSea ws -> all_points d olats olons -> g_save o = SaveNothing -> g_limit o = true ->
  exists out, downscale (d_t di) d ofs (gradient_downscaler (lift1 expo) lg o vmin vmax ielevs ilafs oelevs olafs m ifs gfs) = Ok (true, out) /\ shaped d out /\
  forall t y x e lat lon, 0 <= t < d_t d -> within d y x e -> point olats olons y x lat lon -> exists a b ifd gfd v w,
    is_nearest (D lat lon) ilats ilons a b /\ znth ifs t = Ok ifd /\ znth gfs t = Ok gfd /\ element ifs t a b e v /\ element out t y x e w /\
    (missing v -> w = v) /\
    (forall q, v = Fin q -> ~ missing v -> exists nb g l c, neighbours (d_y di) (d_x di) (g_radius o) a b nb /\
      (let l := flat_map (fun p => elev_pair (if g_log o then lg else fun v => v) minLaf (at2 ielevs p) (atf gfd e p) (at2 ilafs p)) nb in
       (quantity (g_constant o) = None -> not_unstable l) -> elev_rule o minDiff default l g) /\
      ((0 < minLafDiff)%Qc /\ StronglySorted Z.le (g_laf_radii o) /\ Forall (fun w => 0 < w)%Qc ws ->
       laf_rule (d_y di) (d_x di) a b minLafDiff minSea g (at2 ielevs) (at2 ilafs) (atf ifd e) (g_laf_radii o) ws l) /\
      laf_of_point (d_y d) (d_x d) (g_laf_radius o) y x olafs c /\
      limited nb (atf ifd e) (allowed vmin vmax q (moved expo (g_log o) q g (at2 oelevs (y, x)) (at2 ielevs (a, b)) l c (at2 ilafs (a, b)))) w).
Proof. exact c181. Qed.
Print Assumptions C181_limit_partial.
Example C181_example : let o := {| g_constant := fz 1; g_radius := 3; g_min_diff := fz 30; g_default := fz 0; g_min := CMV; g_max := CMV; g_min_laf := fz 0; g_min_num := 2;
    g_laf_radius := 0; g_min_laf_diff := fq (1 # 10); g_min_sea := fz 0; g_laf_radii := []; g_laf_weights := []; g_laf_lo := CMV; g_laf_hi := CMV; g_log := false; g_limit := true; g_save := SaveNothing |} in
  let f z := downscale 1 (dims1 1) [field1 CMV] (gradient_downscaler (fun v => v) (fun v => v) o CMV CMV (row3 (fz 0) (fz 0) (fz 0)) (row3 (fz 1) (fz 1) (fz 1)) [[fz z]] [[fz 0]] [[(0, 0)]]
    [field3 (fz 5) (fz 3) (fz 9)] [field3 (fz 5) (fz 3) (fz 9)]) in
  f 2 = Ok (true, [field1 (fz 7)]) /\ f 20 = Ok (true, [field1 (fz 9)]) /\ f (-20) = Ok (true, [field1 (fz 3)]).
Proof. split; [vm_compute; do 6 f_equal; veq|]. split; vm_compute; do 6 f_equal; veq. Qed.
