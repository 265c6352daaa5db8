(** Model of the client's bilinear downscaler, src/client/Downscaler/Bilinear.cpp.  As in M_CDown; [m] is what getNearestNeighbour gives.
    Simplifications: exact arithmetic with decimal constants; pow(u, 2) is u * u; the warning for the point (91, 193) is left out.
    getI and getJ are declared bool and have no return statement.  Flowing off the end of such a function is undefined; [off] is what it does:
    [UB] by the standard, [Ok tt] for a compiler that returns to the caller all the same. *)
From Verif Require Import Base M_Stat M_COpt M_CUtil M_CCal M_CTree M_CDown.
Local Open Scope Z_scope.

Section Bilinear.
Context (E : ext) (off : res unit).
(** calcParallelogram, Bilinear.cpp:369-389; gives (s, t) *)
Definition client_parallelogram (x y X1 X2 X3 Y1 Y2 Y3 : val) : res (val * val) :=
  let A := vsub X2 X1 in let B := vsub X3 X1 in let C := vsub Y2 Y1 in let D := vsub Y3 Y1 in
  _ <- assert_ (negb (veqb (vmul A D) (vmul B C))) ;;
  let det := vdiv (fz 1) (vsub (vmul A D) (vmul B C)) in
  Ok (vmul det (vadd (vmul (vsub x X1) D) (vmul (vsub y Y1) (vneg B))),
      vmul det (vadd (vmul (vsub x X1) (vneg C)) (vmul (vsub y Y1) A))).
(** calcGeneral, Bilinear.cpp:391-453; gives (s, t) *)
Definition client_general (x y x0 x1 x2 x3 y0 y1 y2 y3 : val) : res (val * val) :=
  let n2 := fz 2 in
  let a := vadd (vneg x0) x2 in let b := vadd (vneg x0) x1 in
  let c := vadd (vsub (vsub x0 x1) x2) x3 in let d := vsub x x0 in
  let e := vadd (vneg y0) y2 in let f := vadd (vneg y0) y1 in
  let g := vadd (vsub (vsub y0 y1) y2) y3 in let h := vsub y y0 in
  let Y1 := y1 in let Y2 := y3 in let Y3 := y0 in let Y4 := y2 in
  let X1 := x1 in let X2 := x3 in let X3 := x0 in let X4 := x2 in
  let X31 := vsub X3 X1 in let X21 := vsub X2 X1 in let Y42 := vsub Y4 Y2 in let Y21 := vsub Y2 Y1 in
  let Y31 := vsub Y3 Y1 in let Y43 := vsub Y4 Y3 in let X42 := vsub X4 X2 in let X43 := vsub X4 X3 in
  let den_a := vsub (vmul (vmul n2 c) e) (vmul (vmul n2 a) g) in
  let den_b := vsub (vmul (vmul n2 c) f) (vmul (vmul n2 b) g) in
  (* b e - a f + d g - c h and b e - a f - d g + c h *)
  let p := vsub (vadd (vsub (vmul b e) (vmul a f)) (vmul d g)) (vmul c h) in
  let q := vadd (vsub (vsub (vmul b e) (vmul a f)) (vmul d g)) (vmul c h) in
  let root := vsqrt E (vadd (vmul (vmul (fz (-4)) (vsub (vmul c e) (vmul a g))) (vsub (vmul d f) (vmul b h))) (vmul p p)) in
  let alpha := vdiv (vneg (vadd p root)) den_a in
  let beta := vdiv (vadd q root) den_b in
  '(alpha, beta) <-
    (if negb (veqb den_a (fz 0)) && negb (veqb den_b (fz 0)) then Ok (alpha, beta)
     else if veqb den_b (fz 0) then
       let dy := vsub (vsub (vadd Y3 (vmul Y43 alpha)) Y1) (vmul Y21 alpha) in
       let dx := vsub (vsub (vadd X3 (vmul X43 alpha)) X1) (vmul X21 alpha) in
       t <- (if veqb dy (fz 0) then _ <- assert_ (negb (veqb dx (fz 0))) ;; Ok (vdiv (vsub (vsub x X1) (vmul X21 alpha)) dx)
             else Ok (vdiv (vsub (vsub y Y1) (vmul Y21 alpha)) dy)) ;;
       Ok (alpha, vsub (fz 1) t)
     else if veqb den_a (fz 0) then
       let t := vsub (fz 1) beta in
       let dy := vsub (vsub (vadd Y2 (vmul Y42 t)) Y1) (vmul Y31 t) in
       let dx := vsub (vsub (vadd X2 (vmul X42 t)) X1) (vmul X31 t) in
       s <- (if veqb dy (fz 0) then _ <- assert_ (negb (veqb dx (fz 0))) ;; Ok (vdiv (vsub (vsub x X1) (vmul X31 t)) dx)
             else Ok (vdiv (vsub (vsub y Y1) (vmul Y31 t)) dy)) ;;
       Ok (s, beta)
     else Ok (CMV, CMV)) ;;
  Ok (alpha, vsub (fz 1) beta).
(** calcST, Bilinear.cpp:348-368; gives (s, t) *)
Definition calc_st (x y x0 x1 x2 x3 y0 y1 y2 y3 : val) : res (val * val) :=
  let Y1 := y1 in let Y2 := y3 in let Y3 := y0 in let Y4 := y2 in
  let X1 := x1 in let X2 := x3 in let X3 := x0 in let X4 := x2 in
  let vertical := vleb (vabs (vsub (vmul (vsub X3 X1) (vsub Y4 Y2)) (vmul (vsub X4 X2) (vsub Y3 Y1)))) (fq (1#1000000)) in
  let horizontal := vleb (vabs (vsub (vmul (vsub X2 X1) (vsub Y4 Y3)) (vmul (vsub X4 X3) (vsub Y2 Y1)))) (fq (1#1000000)) in
  if vertical && horizontal then client_parallelogram x y X1 X2 X3 Y1 Y2 Y3 else client_general x y x0 x1 x2 x3 y0 y1 y2 y3.
(** bilinear, Bilinear.cpp:51-60 *)
Definition client_snap (t : val) : val :=
  let t := if vleb (fz 1) t && vleb t (fq (117#100)) then fz 1 else t in
  if vleb t (fz 0) && vleb (fq (-20#100)) t then fz 0 else t.
(** DownscalerBilinear::bilinear, Bilinear.cpp:31-74 *)
Definition client_cell (x y x0 x1 x2 x3 y0 y1 y2 y3 v0 v1 v2 v3 : val) : res val :=
  let P1 := v1 in let P2 := v3 in let P3 := v0 in let P4 := v2 in
  '(s, t) <- calc_st x y x0 x1 x2 x3 y0 y1 y2 y3 ;;
  let t := client_snap t in let s := client_snap s in
  if negb (vleb (fz 0) s && vleb s (fz 1) && vleb (fz 0) t && vleb t (fz 1)) then Abort else
  let s' := vsub (fz 1) s in let t' := vsub (fz 1) t in
  Ok (vadd (vadd (vadd (vmul (vmul P1 s') t') (vmul (vmul P2 s) t')) (vmul (vmul P3 s') t)) (vmul (vmul P4 s) t)).
(** getI and getJ, Bilinear.cpp:455-501: the two indices *)
Definition get_pair (I : Z) (after increasing : bool) : res (Z * Z) := _ <- off ;; Ok (if Bool.eqb after increasing then (I, I + 1) else (I - 1, I)).
(** one of the eight tests: a[i][j] < b[k][l], read only if the rest of the condition holds *)
Definition when_less (c : bool) (a : list vec) (i j k l : Z) : res bool := if c then u <- get2 a i j ;; v <- get2 a k l ;; Ok (vltb u v) else Ok false.
Definition orr (r : res bool) (k : res bool) : res bool := b <- r ;; if b : bool then Ok true else k.
(** Bilinear.cpp:207-229 and 294-316: is the point outside of the grid? *)
Definition beyond_edge (lats lons : list vec) (I J nI nJ : Z) (isAbove isRight : bool) : res bool :=
  orr (when_less (isAbove && (I =? nI - 1)) lats (I - 1) J I J)
  (orr (when_less (negb isAbove && (I =? 0)) lats 0 J 1 J)
  (orr (when_less (isAbove && (I =? 0)) lats 1 J 0 J)
  (orr (when_less (negb isAbove && (I =? nI - 1)) lats I J (I - 1) J)
  (orr (when_less (isRight && (J =? nJ - 1)) lons I (J - 1) I J)
  (orr (when_less (negb isRight && (J =? 0)) lons I 0 I 1)
  (orr (when_less (isRight && (J =? 0)) lons I 1 I 0)
       (when_less (negb isRight && (I =? nJ - 1)) lons I J I (J - 1)))))))).
(** the coordinates of the corners of a box *)
Definition box_corners (a : list vec) (I1 J1 I2 J2 : Z) : res (val * val * val * val) :=
  a0 <- get2 a I1 J1 ;; a1 <- get2 a I2 J1 ;; a2 <- get2 a I1 J2 ;; a3 <- get2 a I2 J2 ;; Ok (a0, a1, a2, a3).
Definition box_st (lat lon : val) (lats lons : list vec) (I1 J1 I2 J2 : Z) : res (val * val) :=
  '(x0, x1, x2, x3) <- box_corners lons I1 J1 I2 J2 ;; '(y0, y1, y2, y3) <- box_corners lats I1 J1 I2 J2 ;;
  calc_st lon lat x0 x1 x2 x3 y0 y1 y2 y3.
(** outside of [-0.05, 1.05] *)
Definition off_limit (v : val) : bool := vltb (fq (105#100)) v || vltb v (fq (-5#100)).
(** findCoords, Bilinear.cpp:191-347; None if it returns false, else (I1, J1, I2, J2) *)
Definition find_coords (lat lon : val) (lats lons : list vec) (I J : Z) : res (option (Z * Z * Z * Z)) :=
  lo <- get2 lons I J ;; la <- get2 lats I J ;;
  let isRight := vltb lo lon in let isAbove := vltb la lat in
  let nI := zlen lats in row <- znth lats 0 ;; let nJ := zlen row in
  _ <- assert_ ((I <? nI) && (0 <=? I)) ;; _ <- assert_ ((J <? nJ) && (0 <=? J)) ;;
  out <- beyond_edge lats lons I J nI nJ isAbove isRight ;;
  if out : bool then Ok None else
  Iinc <- (if I =? 0 then Ok true else u <- get2 lats (I - 1) J ;; Ok (vltb u la)) ;;
  Jinc <- (if J =? 0 then Ok true else u <- get2 lons I (J - 1) ;; Ok (vltb u lo)) ;;
  '(I1, I2) <- get_pair I isAbove Iinc ;; '(J1, J2) <- get_pair J isRight Jinc ;;
  if negb ((0 <=? I1) && (I1 <? nI) && (0 <=? I2) && (I2 <? nI) && (0 <=? J1) && (J1 <? nJ) && (0 <=? J2) && (J2 <? nJ)) then Ok None else
  '(s, t) <- box_st lat lon lats lons I1 J1 I2 J2 ;;
  found <- (if off_limit s || off_limit t then
      let isAbove := if off_limit t then negb isAbove else isAbove in
      '(I1, I2) <- (if off_limit t then get_pair I isAbove Iinc else Ok (I1, I2)) ;;
      let isRight := if off_limit s then negb isRight else isRight in
      '(J1, J2) <- (if off_limit s then get_pair J isRight Jinc else Ok (J1, J2)) ;;
      out <- beyond_edge lats lons I J nI nJ isAbove isRight ;;
      if out : bool then Ok None else
      st <- box_st lat lon lats lons I1 J1 I2 J2 ;; Ok (Some (I1, J1, I2, J2, st))
    else Ok (Some (I1, J1, I2, J2, (s, t)))) ;;
  match found with
  | None => Ok None
  | Some (I1, J1, I2, J2, (s, t)) =>
      if off_limit s || off_limit t then Abort else
      _ <- assert_ (vleb s (fq (105#100)) && vleb (fq (-5#100)) s && vleb t (fq (105#100)) && vleb (fq (-5#100)) t) ;;
      Ok (Some (I1, J1, I2, J2))
  end.
(** the values at the corners, and the interpolated value if they are all valid, else [other] *)
Definition box_value (lat lon : val) (lats lons : list vec) (read : Z -> Z -> res val) (b : Z * Z * Z * Z) (other : res val) : res val :=
  let '(I1, J1, I2, J2) := b in
  '(x0, x1, x2, x3) <- box_corners lons I1 J1 I2 J2 ;; '(y0, y1, y2, y3) <- box_corners lats I1 J1 I2 J2 ;;
  v0 <- read I1 J1 ;; v1 <- read I2 J1 ;; v2 <- read I1 J2 ;; v3 <- read I2 J2 ;;
  if cvalid v0 && cvalid v1 && cvalid v2 && cvalid v3 then client_cell lon lat x0 x1 x2 x3 y0 y1 y2 y3 v0 v1 v2 v3 else other.
(** downscaleVec, Bilinear.cpp:76-133: the value for one output point; downscaleField, 135-189, for one member of it.  They differ in what is
    given if a corner is missing. *)
Definition bilinear_value (keep : bool) (ilats ilons olats olons : list vec) (m : list (list (Z * Z))) (read : Z -> Z -> res val) (i j : Z) : res val :=
  '(Ic, Jc) <- get2 m i j ;; lat <- get2 olats i j ;; lon <- get2 olons i j ;;
  box <- find_coords lat lon ilats ilons Ic Jc ;;
  match box with Some b => box_value lat lon ilats ilons read b (if keep then read Ic Jc else Ok CMV) | None => read Ic Jc end.
Definition bilinear_vec (ilats ilons olats olons : list vec) (m : list (list (Z * Z))) (input : list vec) : res (list vec) :=
  nLon <- num_x olats ;; mapM (fun i => mapM (fun j => bilinear_value true ilats ilons olats olons m (get2 input) i j) (zrange 0 nLon)) (zrange 0 (zlen olats)).
(** downscaleCore, Bilinear.cpp:13-29 *)
Definition bilinear_downscaler (ilats ilons olats olons : list vec) (m : list (list (Z * Z))) (ifields : list field) (d : dims) (ofields : list field) : res (list field) :=
  write_elements d ofields (fun t i j e => bilinear_value false ilats ilons olats olons m (fun y x => get4 ifields t y x e) i j).
End Bilinear.
