(** Model of bilinear.cpp.  The asserts in it are not modelled. *)
From Verif Require Import Base M_Geo M_Near.

Definition n2 : val := fz 2.
(** calcParallelogram, bilinear.cpp:138-154; returns (s, t).  X4 and Y4 are unused in the code. *)
Definition calc_parallelogram (x y X1 X2 X3 Y1 Y2 Y3 : val) : val * val :=
  let A := vsub X2 X1 in let B := vsub X3 X1 in let C := vsub Y2 Y1 in let D := vsub Y3 Y1 in
  let det := vdiv (fz 1) (vsub (vmul A D) (vmul B C)) in
  (vmul det (vadd (vmul (vsub x X1) D) (vmul (vsub y Y1) (vneg B))),
   vmul det (vadd (vmul (vsub x X1) (vneg C)) (vmul (vsub y Y1) A))).
(** is_within_range, bilinear.cpp:155-158 *)
Definition is_within_range (value : val) : bool := vleb (fq (-1#100)) value && vltb value (fq (101#100)).
(** calcGeneral, bilinear.cpp:160-269; returns (s, t); pow(u, 2) is u * u *)
Definition calc_general (E : ext) (x y x0 x1 x2 x3 y0 y1 y2 y3 : val) : val * val :=
  let a := vadd (vneg x0) x2 in let b := vadd (vneg x0) x1 in
  let c := vadd (vsub (vsub x0 x1) x2) x3 in let d := vsub x x0 in
  let e := vadd (vneg y0) y2 in let f := vadd (vneg y0) y1 in
  let g := vadd (vsub (vsub y0 y1) y2) y3 in let h := vsub y y0 in
  let Y1 := y1 in let Y2 := y3 in let Y3 := y0 in let Y4 := y2 in
  let X1 := x1 in let X2 := x3 in let X3 := x0 in let X4 := x2 in
  let X31 := vsub X3 X1 in let X21 := vsub X2 X1 in let Y42 := vsub Y4 Y2 in let Y21 := vsub Y2 Y1 in
  let Y31 := vsub Y3 Y1 in let Y43 := vsub Y4 Y3 in let X42 := vsub X4 X2 in let X43 := vsub X4 X3 in
  let den_a := vsub (vmul (vmul n2 c) e) (vmul (vmul n2 a) g) in
  let den_b := vsub (vmul (vmul n2 c) f) (vmul (vmul n2 b) g) in
  (* b e - a f + d g - c h and b e - a f - d g + c h *)
  let p := vsub (vadd (vsub (vmul b e) (vmul a f)) (vmul d g)) (vmul c h) in
  let q := vadd (vsub (vsub (vmul b e) (vmul a f)) (vmul d g)) (vmul c h) in
  let root := vsqrt E (vadd (vmul (vmul (fz (-4)) (vsub (vmul c e) (vmul a g))) (vsub (vmul d f) (vmul b h))) (vmul p p)) in
  let alpha_plus := vdiv (vneg (vadd p root)) den_a in let alpha_minus := vdiv (vneg (vsub p root)) den_a in
  let beta_plus := vdiv (vadd q root) den_b in let beta_minus := vdiv (vsub q root) den_b in
  let '(alpha, beta) :=
    if negb (veqb den_a (fz 0)) && negb (veqb den_b (fz 0)) then
      (if is_within_range alpha_plus then alpha_plus else alpha_minus, if is_within_range beta_plus then beta_plus else beta_minus)
    else if veqb den_b (fz 0) then
      let alpha := if is_within_range alpha_plus then alpha_plus else alpha_minus in
      let s := alpha in
      let dy := vsub (vsub (vadd Y3 (vmul Y43 s)) Y1) (vmul Y21 s) in
      let t := if veqb dy (fz 0)
        then vdiv (vsub (vsub x X1) (vmul X21 s)) (vsub (vsub (vadd X3 (vmul X43 s)) X1) (vmul X21 s))
        else vdiv (vsub (vsub y Y1) (vmul Y21 s)) dy in
      (alpha, vsub (fz 1) t)
    else if veqb den_a (fz 0) then
      (* lines 250-252 try the same root *)
      let beta := if is_within_range beta_plus then beta_plus else beta_plus in
      let t := vsub (fz 1) beta in
      let dy := vsub (vsub (vadd Y2 (vmul Y42 t)) Y1) (vmul Y31 t) in
      let s := if veqb dy (fz 0)
        then vdiv (vsub (vsub x X1) (vmul X31 t)) (vsub (vsub (vadd X2 (vmul X42 t)) X1) (vmul X31 t))
        else vdiv (vsub (vsub y Y1) (vmul Y31 t)) dy in
      (s, beta)
    else (MV, MV) in
  (alpha, vsub (fz 1) beta).
(** bilinear.cpp:301-308: snap slightly outside values to the edge *)
Definition snap (t : val) : val :=
  let t := if vleb (fz 1) t && vleb t (fq (115#100)) then fz 1 else t in
  if vleb t (fz 0) && vleb (fq (-15#100)) t then fz 0 else t.
(** ::bilinear, bilinear.cpp:270-318 *)
Definition bilinear_cell (E : ext) (x y x0 x1 x2 x3 y0 y1 y2 y3 v0 v1 v2 v3 : val) : res val :=
  let Y1 := y1 in let Y2 := y3 in let Y3 := y0 in let Y4 := y2 in
  let X1 := x1 in let X2 := x3 in let X3 := x0 in let X4 := x2 in
  let P1 := v1 in let P2 := v3 in let P3 := v0 in let P4 := v2 in
  let vertical := vleb (vabs (vsub (vmul (vsub X3 X1) (vsub Y4 Y2)) (vmul (vsub X4 X2) (vsub Y3 Y1)))) (fq (1#10000)) in
  let horizontal := vleb (vabs (vsub (vmul (vsub X2 X1) (vsub Y4 Y3)) (vmul (vsub X4 X3) (vsub Y2 Y1)))) (fq (1#10000)) in
  let '(s, t) := if vertical && horizontal then calc_parallelogram x y X1 X2 X3 Y1 Y2 Y3
                 else calc_general E x y x0 x1 x2 x3 y0 y1 y2 y3 in
  let t := snap t in let s := snap s in
  if negb (vleb (fz 0) s && vleb s (fz 1) && vleb (fz 0) t && vleb t (fz 1)) then Throw RuntimeError else
  let s' := vsub (fz 1) s in let t' := vsub (fz 1) t in
  Ok (vadd (vadd (vadd (vmul (vmul P1 s') t') (vmul (vmul P2 s) t')) (vmul (vmul P3 s') t)) (vmul (vmul P4 s) t)).
(** the value of one field for a location: calc, bilinear.cpp:321-359 (and the loop bodies 380-394, 400-402).
    [box] is the answer of get_box *)
Definition calc_box (E : ext) (G : geo) (ig : grid) (v : vec2) (box : option (Z * Z * Z * Z)) (lat lon : val) : res val :=
  match box with
  | Some (I1, J1, I2, J2) =>
    x0 <- get2 (g_lons ig) I1 J1 ;; x1 <- get2 (g_lons ig) I2 J1 ;; x2 <- get2 (g_lons ig) I1 J2 ;; x3 <- get2 (g_lons ig) I2 J2 ;;
    y0 <- get2 (g_lats ig) I1 J1 ;; y1 <- get2 (g_lats ig) I2 J1 ;; y2 <- get2 (g_lats ig) I1 J2 ;; y3 <- get2 (g_lats ig) I2 J2 ;;
    v0 <- get2 v I1 J1 ;; v1 <- get2 v I2 J1 ;; v2 <- get2 v I1 J2 ;; v3 <- get2 v I2 J2 ;;
    if is_valid v0 && is_valid v1 && is_valid v2 && is_valid v3 then bilinear_cell E lon lat x0 x1 x2 x3 y0 y1 y2 y3 v0 v1 v2 v3
    else k <- lookup_grid G ig lat lon ;; at_grid v k
  | None => k <- lookup_grid G ig lat lon ;; at_grid v k
  end.
Definition bilinear_loc (E : ext) (G : geo) (ig : grid) (v : vec2) (lat lon : val) : res val :=
  box <- get_box G ig lat lon ;; calc_box E G ig v box lat lon.
(** calc for several fields, bilinear.cpp:360-403 *)
Definition bilinear_loc3 (E : ext) (G : geo) (ig : grid) (v : vec3) (lat lon : val) : res vec :=
  box <- get_box G ig lat lon ;; mapM (fun vt => calc_box E G ig vt box lat lon) v.

(** bilinear(Grid, Grid, vec2), bilinear.cpp:27-54 *)
Definition bilinear_gg2 (E : ext) (G : geo) (ig og : grid) (v : vec2) : res vec2 :=
  c <- compat_grid2 ig v ;; if negb c then Throw InvalidArgument else
  '(nLat, nLon) <- out_shape og ;;
  e <- is_empty_grid ig ;;
  if (e : bool) then Ok (init2 nLat nLon MV) else
  omp (for2 nLat nLon (init2 nLat nLon MV) (fun i j => '(lat, lon) <- out_loc og i j ;; bilinear_loc E G ig v lat lon)).
(** bilinear(Grid, Grid, vec3), bilinear.cpp:55-83: every output[t][i][j] is written once *)
Definition bilinear_gg3 (E : ext) (G : geo) (ig og : grid) (v : vec3) : res vec3 :=
  c <- compat_grid3 ig v ;; if negb c then Throw InvalidArgument else
  '(nLat, nLon) <- out_shape og ;;
  e <- is_empty_grid ig ;;
  if (e : bool) then Ok (init3 (zlen v) nLat nLon) else
  temps <- omp (for2 nLat nLon (init2 nLat nLon []) (fun i j => '(lat, lon) <- out_loc og i j ;; bilinear_loc3 E G ig v lat lon)) ;;
  mapM (fun t => tab2 nLat nLon (fun i j => temp <- get2 temps i j ;; znth temp t)) (zrange 0 (zlen v)).
(** bilinear(Grid, Points, vec2), bilinear.cpp:85-109 *)
Definition bilinear_gp2 (E : ext) (G : geo) (ig : grid) (op : points) (v : vec2) : res vec :=
  c <- compat_grid2 ig v ;; if negb c then Throw InvalidArgument else
  let n := points_size op in
  e <- is_empty_grid ig ;;
  if (e : bool) then Ok (init1 n MV) else
  omp (for1 n (init1 n MV) (fun i => '(lat, lon) <- pt_loc op i ;; bilinear_loc E G ig v lat lon)).
(** bilinear(Grid, Points, vec3), bilinear.cpp:110-135 *)
Definition bilinear_gp3 (E : ext) (G : geo) (ig : grid) (op : points) (v : vec3) : res vec2 :=
  c <- compat_grid3 ig v ;; if negb c then Throw InvalidArgument else
  let n := points_size op in
  e <- is_empty_grid ig ;;
  if (e : bool) then Ok (init2 (zlen v) n MV) else
  temps <- omp (for1 n (init1 n []) (fun i => '(lat, lon) <- pt_loc op i ;; bilinear_loc3 E G ig v lat lon)) ;;
  mapM (fun t => mapM (fun i => temp <- znth temps i ;; znth temp t) (zrange 0 n)) (zrange 0 (zlen v)).
