(** Local distribution correction (C97, C98). *)
From Verif Require Import Base M_Geo S_Stat S_Geo S_Near M_LDC S_LDC P_Geo P_OIRef P_LDC.
Local Open Scope Z_scope.

(** C97 *)
Theorem C97_distribution_correction : forall G L loc bgc bg g t las los pts t' Y X lats lons background pobs pbg lo hi mp W,
  geo_ok G -> ldclib_ok L -> (forall p q, bgc p q = Ok (bg p q)) ->
  is_grid G t' Y X lats lons g -> is_points G t las los pts -> rect Y X background -> valid_all2 t lats ->
  rect (zlen pobs) (zlen las) pobs -> rect (zlen pobs) (zlen las) pbg -> (0 <= lo)%Qc -> (lo <= hi)%Qc -> (hi <= 1)%Qc ->
  (forall i j la lo' p1, get2 lats i j = Ok la -> get2 lons i j = Ok lo' -> grid_get g i j = Ok p1 ->
     weights_of pts bg p1 (in_reach G t las los loc p1 (position G t la lo')) (W p1)) ->
  exists out, ldc G L (fun p => Ok (loc p)) bgc g background pts pobs pbg (Fin lo) (Fin hi) mp = Ok out /\ rect Y X out /\
  forall i j la lo' p1, get2 lats i j = Ok la -> get2 lons i j = Ok lo' -> grid_get g i j = Ok p1 ->
  exists v, get2 out i j = Ok v /\
  (forall b, get2 background i j = Ok b -> is_valid b = false -> v = b) /\
  (forall b, get2 background i j = Ok (Fin b) -> exists I, NoDup I /\ (forall k, In k I <-> in_reach G t las los loc p1 (position G t la lo') k) /\
     ldc_value L lo hi mp (pairs_of pobs pbg (W p1) I) b v).
Proof. exact c97_all. Qed.
Print Assumptions C97_distribution_correction.
Theorem C97_agreement_unchanged : forall G L loc bgc bg g t las los pts t' Y X lats lons background pobs lo hi mp W,
  geo_ok G -> ldclib_ok L -> (forall p q, bgc p q = Ok (bg p q)) ->
  is_grid G t' Y X lats lons g -> is_points G t las los pts -> rect Y X background -> valid_all2 t lats ->
  rect (zlen pobs) (zlen las) pobs -> (0 <= lo)%Qc -> (lo < hi)%Qc -> (hi <= 1)%Qc ->
  (forall i j la lo' p1, get2 lats i j = Ok la -> get2 lons i j = Ok lo' -> grid_get g i j = Ok p1 ->
     weights_of pts bg p1 (in_reach G t las los loc p1 (position G t la lo')) (W p1)) ->
  exists out, ldc G L (fun p => Ok (loc p)) bgc g background pts pobs pobs (Fin lo) (Fin hi) mp = Ok out /\ rect Y X out /\
  forall i j b, get2 background i j = Ok (Fin b) -> (small <= b)%Qc -> get2 out i j = Ok (Fin b).
Proof. exact c97_identity. Qed.
Print Assumptions C97_agreement_unchanged.
Theorem C97_size_error : forall G L loc bgc g background pts pobs pbg lo hi mp, background <> [] -> pobs <> [] -> pbg <> [] -> zlen pobs <> zlen pbg ->
  ldc G L loc bgc g background pts pobs pbg lo hi mp = Throw InvalidArgument.
Proof. exact c97_errors. Qed.
Print Assumptions C97_size_error.
(** three cells, four stations, one observation missing; the last cell has no station in reach *)
Example C97_example : geo_ok G0 /\ ldclib_ok LD0 /\ is_grid G0 Cartesian 1 3 [[qz 0; qz 0; qz 0]] [[qz 0; qz 1; qz 50]] grid13 /\
  is_points G0 Cartesian (zeros [0; 1; 2; 3]) (map qz [0; 1; 2; 3]) (xpts [0; 1; 2; 3]) /\
  (forall p reach, weights_of (xpts [0; 1; 2; 3]) (fun p q => Fin (near_full p q)) p reach (near_weight (xpts [0; 1; 2; 3]) p)) /\
  ldc G0 LD0 (fun _ => Ok (fz 10)) (fun p q => Ok (Fin (near_full p q))) grid13 [[fz 1; fq (1 # 2); NaN]] (xpts [0; 1; 2; 3])
    [[fz 2; fz 4; fz 1; NaN]] [[fz 1; fz 3; fz 0; fz 5]] (fz 0) (fz 1) 0 = Ok [[fq (52 # 51); fq (53 # 102); NaN]].
Proof.
  split; [exact geo_ok_G0|]. split; [exact LD0_ok|]. split; [exact grid13_ok|]. split; [pts_now|]. split; [intros; apply near_weights|]. vcalc.
Qed.

(** C98 *)
Theorem C98_no_observations_refuted : exists G L loc bgc bg g las los pts lats lons background pobs pbg W p1 out,
  geo_ok G /\ ldclib_ok L /\ (forall p q, bgc p q = Ok (bg p q)) /\ is_grid G Cartesian 1 3 lats lons g /\ is_points G Cartesian las los pts /\
  (forall p reach, weights_of pts bg p reach (W p)) /\ grid_get g 0 2 = Ok p1 /\
  (forall k, ~ in_reach G Cartesian las los loc p1 (position G Cartesian (qz 0) (qz 50)) k) /\ get2 lats 0 2 = Ok (qz 0) /\ get2 lons 0 2 = Ok (qz 50) /\
  ldc G L (fun p => Ok (loc p)) bgc g background pts pobs pbg (fz 0) (fz 1) 0 = Ok out /\
  get2 background 0 2 = Ok (fq (1 # 20)) /\ get2 out 0 2 = Ok (fz 0).
Proof. exact c98_refuted. Qed.
Print Assumptions C98_no_observations_refuted.
Theorem C98_no_observations_partial : forall G L loc bgc bg g t las los pts t' Y X lats lons background pobs pbg lo hi mp W,
  geo_ok G -> ldclib_ok L -> (forall p q, bgc p q = Ok (bg p q)) ->
  is_grid G t' Y X lats lons g -> is_points G t las los pts -> rect Y X background -> valid_all2 t lats ->
  rect (zlen pobs) (zlen las) pobs -> rect (zlen pobs) (zlen las) pbg -> (0 <= lo)%Qc -> (lo <= hi)%Qc -> (hi <= 1)%Qc ->
  (forall i j la lo' p1, get2 lats i j = Ok la -> get2 lons i j = Ok lo' -> grid_get g i j = Ok p1 ->
     weights_of pts bg p1 (in_reach G t las los loc p1 (position G t la lo')) (W p1)) ->
  exists out, ldc G L (fun p => Ok (loc p)) bgc g background pts pobs pbg (Fin lo) (Fin hi) mp = Ok out /\ rect Y X out /\
  forall i j la lo' p1 b, get2 lats i j = Ok la -> get2 lons i j = Ok lo' -> grid_get g i j = Ok p1 -> get2 background i j = Ok (Fin b) ->
  (forall k, ~ in_reach G t las los loc p1 (position G t la lo') k) ->
  (0 < mp \/ (small <= b)%Qc -> get2 out i j = Ok (Fin b)) /\ (mp <= 0 -> (b < small)%Qc -> get2 out i j = Ok (Fin 0%Qc)).
Proof. exact c98_partial. Qed.
Print Assumptions C98_no_observations_partial.
Example C98_example : ldc G0 LD0 (fun _ => Ok (fz 10)) (fun p q => Ok (Fin (near_full p q))) grid13 [[fz 1; fq (1 # 2); fq (1 # 20)]] (xpts [0; 1])
    [[fz 2; fz 4]] [[fz 1; fz 3]] (fz 0) (fz 1) 1 = Ok [[fq (206 # 203); fq (103 # 203); fq (1 # 20)]].
Proof. vcalc. Qed.
