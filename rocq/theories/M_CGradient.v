(** Model of the client's gradient downscaler (src/client/Downscaler/Gradient.cpp) with downscaler=nearestNeighbour.  The exponential function and
    the logarithm are arguments; [m] is what getNearestNeighbour gives.  Not modelled: downscaler=bilinear, and calcBaseValues and
    calcNeighbourhoodMean, which nothing calls. *)
From Verif Require Import Base M_Stat M_COpt M_CUtil M_CCal M_CTree M_CDown.
Local Open Scope Z_scope.

Inductive saved := SaveNothing | SaveElev | SaveLaf.
(** the options, Gradient.cpp:6-60; minLafGradient [g_laf_lo] and maxLafGradient [g_laf_hi] are read and never used, and so is averageNeighbourhood *)
Record gopts := { g_constant : val; g_radius : Z; g_min_diff : val; g_default : val; g_min : val; g_max : val; g_min_laf : val; g_min_num : Z;
  g_laf_radius : Z; g_min_laf_diff : val; g_min_sea : val; g_laf_radii : list Z; g_laf_weights : vec; g_laf_lo : val; g_laf_hi : val; g_log : bool; g_limit : bool; g_save : saved }.

(** the points of the loops over neighbourhoods *)
Definition square (nY nX radius Ic Jc : Z) : list (Z * Z) :=
  flat_map (fun ii => map (fun jj => (ii, jj)) (zrange (Z.max 0 (Jc - radius)) (Z.min (nX - 1) (Jc + radius) + 1)))
           (zrange (Z.max 0 (Ic - radius)) (Z.min (nY - 1) (Ic + radius) + 1)).

(** Gradient.cpp:410-437 *)
Record esums := { es_xy : val; es_x : val; es_y : val; es_xx : val; es_n : Z; es_min : val; es_max : val }.
Definition elev_step (lg : val -> val) (o : gopts) (gfield : field) (ielevs ilafs : list vec) (e : Z) (s : esums) (p : Z * Z) : res esums :=
  let '(ii, jj) := p in
  x <- get2 ielevs ii jj ;; y <- f_get gfield ii jj e ;; currLaf <- get2 ilafs ii jj ;;
  let y := if g_log o then lg y else y in
  if cvalid x && cvalid y && (negb (cvalid currLaf) || vleb (g_min_laf o) currLaf) then
    Ok {| es_xy := vadd (es_xy s) (vmul x y); es_x := vadd (es_x s) x; es_y := vadd (es_y s) y; es_xx := vadd (es_xx s) (vmul x x); es_n := es_n s + 1;
          es_min := if negb (cvalid (es_min s)) || vltb x (es_min s) then x else es_min s;
          es_max := if negb (cvalid (es_max s)) || vltb (es_max s) x then x else es_max s |}
  else Ok s.
(** DownscalerGradient::calcElevGradient, Gradient.cpp:386-472 *)
Definition elev_gradient (lg : val -> val) (o : gopts) (ifield gfield : field) (ielevs ilafs : list vec) (e Ic Jc : Z) : res val :=
  g <- (if cvalid (g_constant o) then Ok (g_constant o) else
    s <- foldM (elev_step lg o gfield ielevs ilafs e) {| es_xy := fz 0; es_x := fz 0; es_y := fz 0; es_xx := fz 0; es_n := 0; es_min := CMV; es_max := CMV |}
      (square (f_ny ifield) (f_nx ifield) (g_radius o) Ic Jc) ;;
    elevDiff <- (if cvalid (es_min s) && cvalid (es_max s) then _ <- assert_ (vleb (es_min s) (es_max s)) ;; Ok (vsub (es_max s) (es_min s)) else Ok CMV) ;;
    if (g_min_num o <=? es_n s) && cvalid elevDiff && vleb (g_min_diff o) elevDiff && negb (veqb (es_xx s) (vmul (es_x s) (es_x s))) then
      let n := fz (es_n s) in
      let meanXY := vdiv (es_xy s) n in let meanX := vdiv (es_x s) n in let meanY := vdiv (es_y s) n in let meanXX := vdiv (es_xx s) n in
      let var := vsub meanXX (vmul meanX meanX) in
      Ok (if negb (veqb var (fz 0)) then vdiv (vsub meanXY (vmul meanX meanY)) var else CMV)
    else Ok CMV) ;;
  let g := if cvalid g then g else g_default o in
  let g := if cvalid (g_min o) && vltb g (g_min o) then g_min o else g in
  Ok (if cvalid (g_max o) && vltb (g_max o) g then g_max o else g).

(** Gradient.cpp:287-330: a point with the smallest and one with the greatest land fraction so far (fraction, elevation, value) *)
Record lstate := { ls_min : val * val * val; ls_max : val * val * val }.
Definition laf_step (ifield : field) (ielevs ilafs : list vec) (e : Z) (s : lstate * Z * Z) (p : Z * Z) : res (lstate * Z * Z) :=
  let '(ii, jj) := p in let '(l, numSea, num) := s in
  currLaf <- get2 ilafs ii jj ;; currElev <- get2 ielevs ii jj ;; currValue <- f_get ifield ii jj e ;;
  let '(numSea, num) := if cvalid currValue then (if vltb currLaf (fq (1 # 2)) then numSea + 1 else numSea, num + 1) else (numSea, num) in
  if cvalid currValue && cvalid currLaf then
    let minLaf := fst (fst (ls_min l)) in let maxLaf := fst (fst (ls_max l)) in
    Ok ({| ls_min := if negb (cvalid minLaf) || vltb currLaf minLaf then (currLaf, currElev, currValue) else ls_min l;
           ls_max := if negb (cvalid maxLaf) || vltb maxLaf currLaf then (currLaf, currElev, currValue) else ls_max l |}, numSea, num)
  else Ok (l, numSea, num).
(** DownscalerGradient::calcLafGradient, Gradient.cpp:276-385; the extremes are kept from radius to radius *)
Definition laf_radius_step (o : gopts) (ifield : field) (ielevs ilafs : list vec) (e Ic Jc : Z) (elevGradient : val) (s : lstate * val * Z * val) (r : Z) : res (lstate * val * Z * val) :=
  let '(l, value, counter, totalWeight) := s in
  searchRadius <- znth (g_laf_radii o) r ;;
  '(l, numSea, num) <- foldM (laf_step ifield ielevs ilafs e) (l, 0, 0) (square (f_ny ifield) (f_nx ifield) searchRadius Ic Jc) ;;
  let '(minLaf, minElev, minT) := ls_min l in let '(maxLaf, maxElev, maxT) := ls_max l in
  if cvalid maxLaf && cvalid minLaf && vleb (g_min_laf_diff o) (vsub maxLaf minLaf) && vleb (g_min_sea o) (vdiv (fz numSea) (fz num)) then
    if cvalid maxElev && cvalid minElev then
      let maxTcorr := vsub maxT (vmul elevGradient (vsub maxElev minElev)) in
      let lafGradient := vdiv (vsub maxTcorr minT) (vsub maxLaf minLaf) in
      w <- znth (g_laf_weights o) r ;;
      Ok (l, vadd value (vmul lafGradient w), counter + 1, vadd totalWeight w)
    else Ok (l, value, counter, totalWeight)
  else Ok (l, value, counter, totalWeight).
Definition laf_gradient (o : gopts) (ifield : field) (ielevs ilafs : list vec) (e Ic Jc : Z) (elevGradient : val) : res val :=
  '(_, value, counter, totalWeight) <- foldM (laf_radius_step o ifield ielevs ilafs e Ic Jc elevGradient)
     ({| ls_min := (CMV, CMV, CMV); ls_max := (CMV, CMV, CMV) |}, fz 0, 0, fz 0) (zrange 0 (zlen (g_laf_radii o))) ;;
  Ok (if (counter =? 0) || negb (cvalid value) then CMV else vdiv value totalWeight).

(** Gradient.cpp:114-133: the land fraction of an output point, or the mean of those around it *)
Definition point_laf (o : gopts) (d : dims) (olafs : list vec) (i j : Z) : res val :=
  if g_laf_radius o =? 0 then get2 olafs i j else
  '(total, count) <- foldM (fun s p => let '(total, count) := s in v <- get2 olafs (fst p) (snd p) ;; Ok (if cvalid v then (vadd total v, count + 1) else (total, count)))
     (fz 0, 0) (square (d_y d) (d_x d) (g_laf_radius o) i j) ;;
  Ok (if 0 <? count then vdiv total (fz count) else CMV).
(** Gradient.cpp:192-212 *)
Definition limit_value (o : gopts) (ifield : field) (e Ic Jc : Z) (value : val) : res val :=
  '(mn, mx) <- foldM (fun s p => let '(mn, mx) := s in curr <- f_get ifield (fst p) (snd p) e ;;
     Ok (if cvalid curr then if negb (cvalid mn) || vltb curr mn then (curr, mx) else if negb (cvalid mx) || vltb mx curr then (mn, curr) else (mn, mx) else (mn, mx)))
     (CMV, CMV) (square (f_ny ifield) (f_nx ifield) (g_radius o) Ic Jc) ;;
  let value := if vltb mx value then mx else value in
  Ok (if vltb value mn then mn else value).
(** Gradient.cpp:106-217 for an element; [base]: the value of the nearest neighbour; [vmin], [vmax]: the bounds of the variable *)
Definition gradient_value (ex lg : val -> val) (o : gopts) (vmin vmax : val) (d : dims) (ifield gfield : field) (ielevs ilafs oelevs olafs elevsInterp lafsInterp : list vec)
    (m : list (list (Z * Z))) (base : val) (i j e : Z) : res val :=
  '(Ic, Jc) <- get2 m i j ;;
  currLaf <- point_laf o d olafs i j ;;
  if negb (cvalid base) then Ok base else
  elevGradient <- elev_gradient lg o ifield gfield ielevs ilafs e Ic Jc ;;
  lafGradient <- (if 0 <? zlen (g_laf_radii o) then laf_gradient o ifield ielevs ilafs e Ic Jc elevGradient else Ok CMV) ;;
  match g_save o with
  | SaveElev => Ok elevGradient
  | SaveLaf => Ok lafGradient
  | SaveNothing =>
    baseElev <- get2 elevsInterp i j ;; baseLaf <- get2 lafsInterp i j ;; currElev <- get2 oelevs i j ;;
    let value := if cvalid currElev && cvalid baseElev then
        let dElev := vsub currElev baseElev in
        if g_log o then vmul base (ex (vmul dElev elevGradient)) else vadd base (vmul dElev elevGradient)
      else base in
    let value := if cvalid currLaf && cvalid baseLaf && cvalid lafGradient then vadd value (vmul (vsub currLaf baseLaf) lafGradient) else value in
    let value := if (cvalid vmin && vltb value vmin) || (cvalid vmax && vltb vmax value) then base else value in
    if g_limit o then limit_value o ifield e Ic Jc value else Ok value
  end.
(** DownscalerNearestNeighbour::downscaleVec, NearestNeighbour.cpp:68-108: a point without nearest neighbour fails the assertions *)
Definition nearest_vec (m : list (list (Z * Z))) (d : dims) (input : list vec) : res (list vec) :=
  mapM (fun i => mapM (fun j =>
    '(Ic, Jc) <- get2 m i j ;; _ <- assert_ ((0 <=? Ic) && (Ic <? zlen input)) ;; row <- znth input Ic ;; _ <- assert_ ((0 <=? Jc) && (Jc <? zlen row)) ;; znth row Jc) (zrange 0 (d_x d))) (zrange 0 (d_y d)).
(** DownscalerGradient::downscaleCore, Gradient.cpp:66-220, with the check of the constructor (line 58) *)
Definition gradient_downscaler (ex lg : val -> val) (o : gopts) (vmin vmax : val) (ielevs ilafs oelevs olafs : list vec) (m : list (list (Z * Z))) (ifields gfields : list field)
    (d : dims) (ofields : list field) : res (list field) :=
  _ <- assert_ (zlen (g_laf_radii o) =? zlen (g_laf_weights o)) ;;
  each_time d (fun t =>
    ifield <- znth ifields t ;; gfield <- znth gfields t ;; f <- znth ofields t ;;
    elevsInterp <- nearest_vec m d ielevs ;; lafsInterp <- nearest_vec m d ilafs ;;
    for3 d f (fun f i j e =>
      base <- nearest_value m ifields t i j e ;;
      w <- gradient_value ex lg o vmin vmax d ifield gfield ielevs ilafs oelevs olafs elevsInterp lafsInterp m base i j e ;;
      f_set f i j e w)).
