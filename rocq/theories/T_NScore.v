(** Scores over a neighbourhood: C92. *)
From Verif Require Import Base M_Geo M_Stat M_Neigh M_Grd M_Score M_NScore S_Stat S_Neigh S_Geo S_Near S_Score S_NScore P_Geo P_NScore.
Local Open Scope Z_scope.

Ltac rect_now := split; [reflexivity | cbn; intuition (subst; reflexivity)].
Ltac grid_now := split; [lia|]; split; [lia|]; split; [rect_now|]; split; [rect_now|];
  exists [], []; split; [auto|]; split; [auto|]; cbn; reflexivity.
Ltac points_now := exists [], []; cbn; reflexivity.
Notation lats23 := [[qz 0; qz 0; qz 0]; [qz 1; qz 1; qz 1]].
Notation lons23 := [[qz 0; qz 1; qz 2]; [qz 0; qz 1; qz 2]].
(** C92 *)
Theorem C92_neighbourhood_score : forall E G t las los ip t' Y X lats lons og fcst ref, geo_ok G -> is_points G t las los ip ->
  is_grid G t' Y X lats lons og -> valid_all t' las -> zlen ref = zlen las -> rect Y X fcst ->
  exists (cell : Z -> Z * Z) (pairs : list (list (list (Qc * Qc)))),
  (forall s la lo, znth las s = Ok la -> znth los s = Ok lo -> closest (grid_at' G t' lats lons) (position G t' la lo) true (cell s)) /\
  rect Y X pairs /\ (forall y x f, get2 fcst y x = Ok f -> get2 pairs y x = Ok (cell_pair (cell_obs cell ref y x) f)) /\
  forall h m thr, 0 < h -> m <> BadMetric ->
  exists out, neighbourhood_score E G og ip fcst ref h m (Fin thr) = Ok out /\
    filtered Y X (fun y x => score_pairs thr (concat (around pairs h y x)) m) out.
Proof. exact c92_score. Qed.
Print Assumptions C92_neighbourhood_score.
Theorem C92_invalid_arguments : forall E G t las los ip t' Y X lats lons og fcst f0 ref h m thr, is_points G t las los ip ->
  is_grid G t' Y X lats lons og -> znth fcst 0 = Ok f0 ->
  (zlen fcst, zlen f0) <> (Y, X) \/ h <= 0 \/ zlen ref <> zlen las ->
  neighbourhood_score E G og ip fcst ref h m thr = Throw InvalidArgument.
Proof. exact c92_errors. Qed.
Print Assumptions C92_invalid_arguments.
(** two hits and a false alarm; the third cell's window holds one of each *)
Example C92_example : exists g P, is_grid G0 Cartesian 2 3 lats23 lons23 g /\ is_points G0 Cartesian [qz 0; qz 0; qz 1] [qz 0; qz 1; qz 2] P /\
  neighbourhood_score E0 G0 g P [[fz 5; fz 5; fz 5]; [fz 5; fz 5; fz 5]] [fz 4; fz 3; fz 1] 1 Ts (fz 2)
    = Ok [[fz 1; fq (2 # 3); fq (1 # 2)]; [fz 1; fq (2 # 3); fq (1 # 2)]].
Proof. eexists. eexists. split; [grid_now|]. split; [points_now|]. vcalc. Qed.
