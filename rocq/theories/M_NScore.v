(** Model of src/api/neighbourhood_score.cpp. *)
From Verif Require Import Base M_Geo M_Stat M_Neigh M_Grd M_Score.

(** one contingency field, neighbourhood_score.cpp:30-44.  The loop fills four arrays; each is computed here on its own.
    [forecast_event] and [event] say which of the four it is. *)
Definition of_bool (b : bool) : val := if b then fz 1 else fz 0.
Definition contingency (ref_grid fcst : vec2) (threshold : val) (forecast_event event : bool) (y x : Z) : res val :=
  r <- get2 ref_grid y x ;;
  if negb (is_valid r) then Ok (fz 0) else
  f <- get2 fcst y x ;;
  if negb (is_valid f) then Ok (fz 0) else
  if Bool.eqb (vltb threshold f) forecast_event
  then Ok (of_bool (if event then vltb threshold r else vleb r threshold)) else Ok (fz 0).
(** neighbourhood_score, neighbourhood_score.cpp:6-61 *)
Definition neighbourhood_score (E : ext) (G : geo) (g : grid) (P : points) (fcst : vec2) (ref : vec)
    (half_width : Z) (m : metric) (threshold : val) : res vec2 :=
  c <- compat_grid2 g fcst ;; if negb c then Throw InvalidArgument else
  if half_width <=? 0 then Throw InvalidArgument else
  f0 <- znth fcst 0 ;;
  let nY := zlen fcst in
  let nX := zlen f0 in
  ref_grid <- gridding_nearest_g E G g P ref 1 Mean ;;
  let field fe ev := omp (for2 nY nX (init2 nY nX (fz 0)) (contingency ref_grid fcst threshold fe ev)) in
  a <- field true true ;;
  b <- field true false ;;
  c <- field false true ;;
  d <- field false false ;;
  a_hood <- neighbourhood E a half_width Mean ;;
  b_hood <- neighbourhood E b half_width Mean ;;
  c_hood <- neighbourhood E c half_width Mean ;;
  d_hood <- neighbourhood E d half_width Mean ;;
  omp (for2 nY nX (init2 nY nX (fz 0)) (fun y x =>
    va <- get2 a_hood y x ;; vb <- get2 b_hood y x ;; vc <- get2 c_hood y x ;; vd <- get2 d_hood y x ;;
    calc_score va vb vc vd m)).
