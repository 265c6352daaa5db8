(** Model of downscalers of the client: src/client/Downscaler/*.cpp, and of the grid of a file: src/client/File/File.cpp.
    [gc] and [srt] are as in M_CTree.  The loops over the output points and the members visit each element once and write only that
    element: [write_elements].  Simplification: a value is computed for one member at a time, so that nothing is checked where the output has no
    members. *)
From Coq Require Import Qround.
From Verif Require Import Base M_Stat M_COpt M_CUtil M_CCal M_CTree.
Local Open Scope Z_scope.

(** Util::isValid of an index *)
Definition ivalid (i : Z) : bool := negb (i =? -999).
(** operator== of vec2 *)
Fixpoint grid_eqb (a b : list vec) : bool :=
  match a, b with [], [] => true | x :: s, y :: t => vec_eqb x y && grid_eqb s t | _, _ => false end.
(** File::getNumX, File.cpp:322-324 *)
Definition num_x (lats : list vec) : res Z := row <- znth lats 0 ;; Ok (zlen row).
(** Downscaler::getNearestNeighbour without the cache, Downscaler.cpp:106-132 and 197-200 (checkRegular is false).  One list of pairs stands for
    the two of the code. *)
Definition identity_map (nLat nLon : Z) : list (list (Z * Z)) := map (fun i => map (fun j => (i, j)) (zrange 0 nLon)) (zrange 0 nLat).
Definition compute_nearest (gc : val -> val -> val -> val -> val) (srt : bool -> list item -> list item) (ilats ilons olats olons : list vec) : res (list (list (Z * Z))) :=
  nLon <- num_x olats ;; let nLat := zlen olats in
  iLon <- num_x ilats ;;
  if (zlen ilats =? nLat) && (iLon =? nLon) && grid_eqb ilats olats && grid_eqb ilons olons then Ok (identity_map nLat nLon)
  else t <- build_tree srt ilats ilons ;; tree_nearest_all gc t nLat nLon olats olons.

(** A file: its coordinates, and its tag (File.h:97-113).  The state of the program: the files, File::mNextTag, and Downscaler::mNeighbourCache. *)
Record cfile := { fl_lats : list vec; fl_lons : list vec; fl_tag : Z }.
Record cstate := { cs_files : list cfile; cs_next : Z; cs_cache : list (Z * Z * list (list (Z * Z))) }.
(** File::File, File.cpp:11-16 *)
Definition new_file (s : cstate) : cstate :=
  {| cs_files := cs_files s ++ [{| fl_lats := []; fl_lons := []; fl_tag := cs_next s |}]; cs_next := cs_next s + 1; cs_cache := cs_cache s |}.
(** The copy constructor copies the tag *)
Definition copy_file (s : cstate) (k : Z) : res cstate :=
  f <- znth (cs_files s) k ;; Ok {| cs_files := cs_files s ++ [f]; cs_next := cs_next s; cs_cache := cs_cache s |}.
(** File::setLats, File.cpp:222-243; -999 is outside the limits, NaN is not *)
Definition lat_bad (v : val) : bool := vltb v (fz (-90)) || vltb (fz 90) v.
Definition lon_bad (v : val) : bool := vltb v (fz (-360)) || vltb (fz 360) v.
(** what is returned, and the file *)
Definition refused (old : list vec) (lats new : list vec) : res bool :=
  if zlen old =? 0 then Ok false
  else if negb (zlen new =? zlen lats) then Ok true
  else row <- znth new 0 ;; nx <- num_x lats ;; Ok (negb (zlen row =? nx)).
Definition set_lats (s : cstate) (k : Z) (lats : list vec) : res (bool * cstate) :=
  f <- znth (cs_files s) k ;;
  no <- refused (fl_lats f) (fl_lats f) lats ;;
  if no : bool then Ok (false, s) else
  let same := grid_eqb (fl_lats f) lats in
  let tag := if same then fl_tag f else cs_next s in
  let next := if same then cs_next s else cs_next s + 1 in
  if existsb (existsb lat_bad) lats then Abort else
  files <- zset (cs_files s) k {| fl_lats := lats; fl_lons := fl_lons f; fl_tag := tag |} ;;
  Ok (true, {| cs_files := files; cs_next := next; cs_cache := cs_cache s |}).
(** File.cpp:265-279: the quotient is a float that is converted to int; for 0 it is NaN, and the conversion is undefined *)
Definition fmod360 (q : Qc) : Qc := (q - qz 360 * qz (Qfloor (this q / (360 # 1))))%Qc.
Definition norm_lon (v : val) : res val :=
  match v with
  | Fin q =>
      if cvalid v then
        if qeqb q 0 then UB else
        let l := if qltb q 0 then (- fmod360 (- q))%Qc else fmod360 q in
        let l := if qltb (qz 180) l then (l - qz 360)%Qc else if qltb l (qz (-180)) then (l + qz 360)%Qc else l in
        if qleb (qz (-180)) l && qleb l (qz 180) then Ok (Fin l) else Abort
      else Ok v
  | _ => Ok v
  end.
(** File::setLons, File.cpp:244-284 *)
Definition set_lons (s : cstate) (k : Z) (lons : list vec) : res (bool * cstate) :=
  f <- znth (cs_files s) k ;;
  no <- refused (fl_lons f) (fl_lats f) lons ;;
  if no : bool then Ok (false, s) else
  let same := grid_eqb (fl_lons f) lons in
  let tag := if same then fl_tag f else cs_next s in
  let next := if same then cs_next s else cs_next s + 1 in
  if existsb (existsb lon_bad) lons then Abort else
  lons <- mapM (mapM norm_lon) lons ;;
  files <- zset (cs_files s) k {| fl_lats := fl_lats f; fl_lons := lons; fl_tag := tag |} ;;
  Ok (true, {| cs_files := files; cs_next := next; cs_cache := cs_cache s |}).
(** isCached, getFromCache, addToCache, Downscaler.cpp:203-226 *)
Definition lookup (c : list (Z * Z * list (list (Z * Z)))) (a b : Z) : option (list (list (Z * Z))) :=
  match find (fun e => (fst (fst e) =? a) && (snd (fst e) =? b)) c with Some e => Some (snd e) | None => None end.
(** Downscaler::getNearestNeighbour, Downscaler.cpp:99-201 *)
Definition get_nearest (gc : val -> val -> val -> val -> val) (srt : bool -> list item -> list item) (s : cstate) (from to : Z) : res (list (list (Z * Z)) * cstate) :=
  f <- znth (cs_files s) from ;; g <- znth (cs_files s) to ;;
  match lookup (cs_cache s) (fl_tag f) (fl_tag g) with
  | Some m => Ok (m, s)
  | None =>
      m <- compute_nearest gc srt (fl_lats f) (fl_lons f) (fl_lats g) (fl_lons g) ;;
      Ok (m, {| cs_files := cs_files s; cs_next := cs_next s; cs_cache := (fl_tag f, fl_tag g, m) :: cs_cache s |})
  end.

(** the fields of the output after every element of d has been given a value *)
Definition write_elements (d : dims) (ofields : list field) (value : Z -> Z -> Z -> Z -> res val) : res (list field) :=
  each_time d (fun t => f <- znth ofields t ;; for3 d f (fun f y x e => w <- value t y x e ;; f_set f y x e w)).
(** Downscaler::downscale, Downscaler.cpp:15-21 *)
Definition downscale (nTimeIn : Z) (d : dims) (ofields : list field) (core : dims -> list field -> res (list field)) : res (bool * list field) :=
  if negb (nTimeIn =? d_t d) then Ok (false, ofields) else out <- core d ofields ;; Ok (true, out).
(** NearestNeighbour.cpp:13-43; [m] is what getNearestNeighbour gives *)
Definition nearest_value (m : list (list (Z * Z))) (ifields : list field) (t i j e : Z) : res val :=
  '(Ic, Jc) <- get2 m i j ;; if ivalid Ic && ivalid Jc then get4 ifields t Ic Jc e else Ok CMV.
Definition nearest_downscaler (m : list (list (Z * Z))) (ifields : list field) (d : dims) (ofields : list field) : res (list field) :=
  write_elements d ofields (nearest_value m ifields).
(** Upscale.cpp:32-68; [m] has the nearest output point of every input point *)
Definition upscale_values (m : list (list (Z * Z))) (ifields : list field) (t i j e : Z) : res vec :=
  foldM (fun acc ii => row <- znth m 0 ;; foldM (fun acc jj =>
    '(Ic, Jc) <- get2 m ii jj ;;
    if (Ic =? i) && (Jc =? j) then curr <- get4 ifields t ii jj e ;; Ok (if cvalid curr then acc ++ [curr] else acc) else Ok acc) acc (zrange 0 (zlen row))) [] (zrange 0 (zlen m)).
Definition upscale_downscaler (E : ext) (st : cstat) (quantile : val) (m : list (list (Z * Z))) (ifields : list field) (d : dims) (ofields : list field) : res (list field) :=
  write_elements d ofields (fun t i j e => values <- upscale_values m ifields t i j e ;; calculate_stat E values st quantile).
(** DownscalerUpscale::downscaleCore with its tree, Upscale.cpp:38-40 *)
Definition upscale (gc : val -> val -> val -> val -> val) (srt : bool -> list item -> list item) (E : ext) (st : cstat) (quantile : val) (ilats ilons olats olons : list vec) (ifields : list field)
    (d : dims) (ofields : list field) : res (list field) :=
  tree <- build_tree srt olats olons ;; nx <- num_x ilats ;;
  m <- tree_nearest_all gc tree (zlen ilats) nx ilats ilons ;;
  upscale_downscaler E st quantile m ifields d ofields.
(** DownscalerSmart::getSmartNeighbours for one point, Smart.cpp:82-148.  [sortp] is std::sort of pairs of an elevation difference and an index by
    the difference (the code has the two the other way around); abs is that of floats. *)
Definition smart_neighbours (sortp : list (val * Z) -> list (val * Z)) (radius num : Z) (minElevDiff : val) (nY nX : Z) (ielevs oelevs : list vec) (m : list (list (Z * Z))) (i j : Z) : res (list (Z * Z)) :=
  '(Ic, Jc) <- get2 m i j ;;
  oelev <- get2 oelevs i j ;; nnElev <- get2 ielevs Ic Jc ;;
  if negb (cvalid oelev) || (cvalid nnElev && cvalid minElevDiff && vleb (vabs (vsub oelev nnElev)) minElevDiff) then Ok [(Ic, Jc)]
  else
    let points := flat_map (fun ii => map (fun jj => (ii, jj)) (zrange (Z.max 0 (Jc - radius)) (Z.min (nX - 1) (Jc + radius) + 1)))
                           (zrange (Z.max 0 (Ic - radius)) (Z.min (nY - 1) (Ic + radius) + 1)) in
    diffs <- mapM (fun p => ielev <- get2 ielevs (fst p) (snd p) ;; Ok (if cvalid ielev then vabs (vsub ielev oelev) else fz 10000000000)) points ;;
    let s := sortp (combine diffs (zrange 0 (zlen points))) in
    if zlen s =? 0 then Ok [(Ic, Jc)]
    else
      let N := Z.min (zlen s) num in
      if N <? 0 then Throw LengthError else mapM (fun n => '(_, index) <- znth s n ;; znth points index) (zrange 0 N).
(** DownscalerSmart::downscaleCore, Smart.cpp:18-60 *)
Definition smart_value (nb : list (list (list (Z * Z)))) (ifields : list field) (t i j e : Z) : res val :=
  l <- get2 nb i j ;;
  '(total, count) <- foldM (fun st p => let '(total, count) := st in let '(ii, jj) := p in
    if ivalid ii && ivalid jj then value <- get4 ifields t ii jj e ;; Ok (if cvalid value then (vadd total value, count + 1) else st) else Ok st) (fz 0, 0) l ;;
  Ok (if 0 <? count then vdiv total (fz count) else CMV).
Definition smart_downscaler (sortp : list (val * Z) -> list (val * Z)) (radius num : Z) (minElevDiff : val) (nY nX : Z) (ielevs oelevs : list vec) (m : list (list (Z * Z))) (ifields : list field)
    (d : dims) (ofields : list field) : res (list field) :=
  nb <- omp (mapM (fun i => mapM (fun j => smart_neighbours sortp radius num minElevDiff nY nX ielevs oelevs m i j) (zrange 0 (d_x d))) (zrange 0 (d_y d))) ;;
  write_elements d ofields (smart_value nb ifields).
(** DownscalerPressure::calcPressure, Pressure.cpp:63-71; [ex] is exp.  Simplification: the constant is the decimal number, not its nearest float. *)
Definition calc_pressure (ex : val -> val) (elev0 pressure0 elev1 : val) : val :=
  if cvalid elev0 && cvalid pressure0 && cvalid elev1 then vmul pressure0 (ex (vmul (fq (-121 # 1000000)) (vsub elev1 elev0))) else CMV.
(** Pressure.cpp:11-54; the indices are compared as unsigned numbers *)
Definition pressure_value (ex : val -> val) (ielevs oelevs : list vec) (m : list (list (Z * Z))) (ifields : list field) (t i j e : Z) : res val :=
  '(Ic, Jc) <- get2 m i j ;;
  if negb ((0 <=? Ic) && (Ic <? zlen ielevs)) then Abort else
  row <- znth ielevs Ic ;;
  if negb ((0 <=? Jc) && (Jc <? zlen row)) then Abort else
  currElev <- get2 oelevs i j ;; nearestElev <- znth row Jc ;;
  p <- get4 ifields t Ic Jc e ;;
  Ok (if negb (cvalid currElev) || negb (cvalid nearestElev) then p else calc_pressure ex nearestElev p currElev).
Definition pressure_downscaler (ex : val -> val) (ielevs oelevs : list vec) (m : list (list (Z * Z))) (ifields : list field) (d : dims) (ofields : list field) : res (list field) :=
  write_elements d ofields (pressure_value ex ielevs oelevs m ifields).
