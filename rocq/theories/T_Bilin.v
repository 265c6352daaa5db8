(** Property theorems C43 and C70. *)
From Verif Require Import QcTac Base M_Geo M_Near M_Bilin S_Geo S_Near S_Bilin P_Geo P_Near P_Bilin P_BilinGrid P_Trap.

Ltac rect_now := split; [reflexivity | cbn; intuition (subst; reflexivity)].
Ltac grid_now := split; [lia|]; split; [lia|]; split; [rect_now|]; split; [rect_now|];
  exists [], []; split; [auto|]; split; [auto|]; cbn; reflexivity.
Ltac points_now := exists [], []; cbn; reflexivity.
Notation lats23 := [[qz 0; qz 0; qz 0]; [qz 1; qz 1; qz 1]].
Notation lons23 := [[qz 0; qz 1; qz 2]; [qz 1; qz 2; qz 3]].

(** C43: cells that are parallelograms *)
Theorem C43_bilinear_grid : forall E G t Y X lats lons ig t' Y' X' lats' lons' og, geo_ok G -> is_grid G t Y X lats lons ig -> parallelogram_cells lats lons ->
  is_grid G t' Y' X' lats' lons' og -> valid_all2 t lats' -> box_accepted t lats (concat lats') ->
  (forall v, rect Y X v -> exists out, bilinear_gg2 E G ig og v = Ok out /\ rect Y' X' out /\ each_grid lats' lons' (bilinear_at G t lats lons v) out) /\
  (forall v, Forall (rect Y X) v -> exists out, bilinear_gg3 E G ig og v = Ok out /\
     Forall2 (fun vt ot => rect Y' X' ot /\ each_grid lats' lons' (bilinear_at G t lats lons vt) ot) v out).
Proof. exact c43_grid. Qed.
Print Assumptions C43_bilinear_grid.
Theorem C43_bilinear_points : forall E G t Y X lats lons ig t' las' los' op, geo_ok G -> is_grid G t Y X lats lons ig -> parallelogram_cells lats lons ->
  is_points G t' las' los' op -> valid_all t las' -> box_accepted t lats las' ->
  (forall v, rect Y X v -> exists out, bilinear_gp2 E G ig op v = Ok out /\ each_point las' los' (bilinear_at G t lats lons v) out) /\
  (forall v, Forall (rect Y X) v -> exists out, bilinear_gp3 E G ig op v = Ok out /\
     Forall2 (fun vt ot => each_point las' los' (bilinear_at G t lats lons vt) ot) v out).
Proof. exact c43_points. Qed.
Print Assumptions C43_bilinear_points.
Theorem C43_bilinear_between_corners : forall v0 v1 v2 v3 s u m M, unit_range s -> unit_range u -> (m <= v0 <= M)%Qc -> (m <= v1 <= M)%Qc -> (m <= v2 <= M)%Qc -> (m <= v3 <= M)%Qc ->
  (m <= blend v0 v1 v2 v3 s u <= M)%Qc.
Proof. exact c43_bounds. Qed.
Print Assumptions C43_bilinear_between_corners.
Theorem C43_bilinear_at_grid_point : forall G t lats lons v i j la lo r, parallelogram_cells lats lons ->
  get2 lats i j = Ok la -> get2 lons i j = Ok lo ->
  (forall i' j', grid_at G t lats lons i' j' (position G t la lo) -> (i', j') = (i, j)) ->
  bilinear_at G t lats lons v la lo r -> get2 v i j = Ok r.
Proof. exact c43_at_grid_point. Qed.
Print Assumptions C43_bilinear_at_grid_point.
Theorem C43_bilinear_reproduces_affine : forall G t lats lons v la lo r (a b c : Qc), parallelogram_cells lats lons ->
  (forall i j y x w, get2 lats i j = Ok y -> get2 lons i j = Ok x -> get2 v i j = Ok w -> w = Fin (a + b * x + c * y)%Qc) ->
  (exists y x, (forall yn xn, closest (grid_at' G t lats lons) (position G t la lo) true (yn, xn) -> corner_of yn xn y x) /\ in_pcell lats lons y x la lo) ->
  bilinear_at G t lats lons v la lo r -> r = Fin (a + b * lo + c * la)%Qc.
Proof. exact c43_affine. Qed.
Print Assumptions C43_bilinear_reproduces_affine.
Theorem C43_bilinear_mean_any_cell : forall E G t Y X lats lons ig t' las' los' op v out, geo_ok G -> is_grid G t Y X lats lons ig ->
  is_points G t' las' los' op -> valid_all t las' -> rect Y X v -> bilinear_gp2 E G ig op v = Ok out ->
  each_point las' los' (bilinear_mean G t lats lons v) out.
Proof. exact c43_mean. Qed.
Print Assumptions C43_bilinear_mean_any_cell.
Example C43_example : exists g P, is_grid G0 Cartesian 2 3 lats23 lons23 g /\ is_points G0 Cartesian [Q2Qc (1#2); qz 1; qz 5] [qz 1; qz 2; qz 0] P /\
  box_accepted Cartesian lats23 [Q2Qc (1#2); qz 1; qz 5] /\
  bilinear_gp2 E0 G0 g P [[fz 1; fz 2; fz 3]; [fz 4; fz 5; fz 6]] = Ok [fz 3; fz 5; fz 4] /\
  bilinear_gp2 E0 G0 g P [[NaN; fz 2; fz 3]; [fz 4; fz 5; fz 6]] = Ok [fz 2; fz 5; fz 4].
Proof.
  eexists. eexists. split; [grid_now|]. split; [points_now|]. split.
  - right. split; repeat constructor; try (vm_compute; discriminate).
  - split; vcalc.
Qed.
Example C43_example_parallelogram : parallelogram_cells lats23 lons23.
Proof.
  intros y x y0 y1 y2 y3 x0 x1 x2 x3 Cy Cx.
  assert (K : (y = 0 /\ (x = 0 \/ x = 1))%Z).
  { destruct Cy as (H0 & _ & _ & H3).
    assert (R : rect 2 3 lats23) by rect_now.
    pose proof (ListLib.get2_range _ _ _ _ _ _ R H0). pose proof (ListLib.get2_range _ _ _ _ _ _ R H3). lia. }
  destruct K as [-> [-> | ->]]; destruct Cy as (A0 & A1 & A2 & A3), Cx as (B0 & B1 & B2 & B3); cbn in *;
    injection A0 as <-; injection A1 as <-; injection A2 as <-; injection A3 as <-;
    injection B0 as <-; injection B1 as <-; injection B2 as <-; injection B3 as <-;
    (split; [split; vcalc|vm_compute; discriminate]).
Qed.

(** C70: other convex cells; fails, the third branch of calcGeneral tries the same root twice *)
Theorem C70_bilinear_convex_cell_refuted : exists E g P v, exact_sqrt E /\ geo_ok G0 /\ is_grid G0 Cartesian 2 2 tl to g /\ is_points G0 Cartesian [half] [1%Qc] P /\
  rect 2 2 v /\ Forall (Forall (fun w => exists q, w = Fin q)) v /\
  convex_cell tl to 0 0 /\ unit_range third /\ unit_range half /\ blend_position tl to 0 0 half 1%Qc third half /\
  bilinear_gp2 E G0 g P v = Abort.
Proof. exact c70_refuted. Qed.
Print Assumptions C70_bilinear_convex_cell_refuted.
(** The same cell with the rows in the other order is interpolated. *)
Example C70_example : exists g P, is_grid G0 Cartesian 2 2 [[qz 0; qz 0]; [qz 1; qz 1]] [[qz 0; qz 4]; [qz 0; qz 2]] g /\ is_points G0 Cartesian [Q2Qc (1#2)] [qz 1] P /\
  bilinear_gp2 ER G0 g P [[fz 3; fz 6]; [fz 0; fz 3]] = Ok [fq (5#2)].
Proof. eexists. eexists. split; [grid_now|]. split; [points_now|]. vcalc. Qed.
