(** Argument checks of the Grid versions of the ensemble analyses (C107, C116, C121, C130). *)
From Verif Require Import Base QcTac ListLib RBase M_Geo S_Geo M_Stat S_Near M_OI M_EnsMulti M_Ensi M_EnsDyn M_EnsUtem P_OIRef P_EnsChk.
Local Open Scope Z_scope.

Theorem C107_grid_argument_checks : forall G L S bgrid bratios background pts pobs pratios pbg mp ex Y X a1 b1 nE a3 b3 a4 b4 a6 b6, 0 < points_size pts -> grid_size bgrid = Ok (Y, X) ->
  rect3 a1 b1 nE background -> 0 < a1 -> 0 < b1 -> rect a3 b3 bratios -> 0 < a3 -> rect a4 b4 pbg -> 0 < a4 -> rect a6 b6 pobs -> 0 < a6 ->
  mp < 0 \/ Y = 0 \/ X = 0 \/ grid_type bgrid <> points_type pts \/ (a1, b1) <> (Y, X) \/ (a3, b3) <> (Y, X) \/ (a4, b4) <> (points_size pts, nE) \/ (a6, b6) <> (points_size pts, nE) \/ zlen pratios <> points_size pts ->
  ebesc_grid G L S bgrid bratios background pts pobs pratios pbg mp ex = Throw InvalidArgument.
Proof. exact c107_grid. Qed.
Print Assumptions C107_grid_argument_checks.
Theorem C116_grid_argument_checks : forall E G L EL S bgrid background pts pobs psigmas pbg mp ex Y X a1 b1 nE a4 b4, 0 < points_size pts -> grid_size bgrid = Ok (Y, X) ->
  rect3 a1 b1 nE background -> 0 < a1 -> 0 < b1 -> rect a4 b4 pbg -> 0 < a4 ->
  mp < 0 \/ Y = 0 \/ X = 0 \/ grid_type bgrid <> points_type pts \/ (a1, b1) <> (Y, X) \/ b4 <> nE \/ zlen pobs <> points_size pts \/ zlen psigmas <> points_size pts ->
  ensi_grid E G L EL S bgrid background pts pobs psigmas pbg mp ex = Throw InvalidArgument.
Proof. exact c116_grid. Qed.
Print Assumptions C116_grid_argument_checks.
Theorem C121_grid_argument_checks : forall E G L RL S bgrid bratios background background_corr pts pobs pratios pbg pbg_corr mp ex Y X a1 b1 nE a2 b2 c2 a3 b3 a4 b4 a5 b5 a6 b6, 0 < points_size pts -> grid_size bgrid = Ok (Y, X) ->
  rect3 a1 b1 nE background -> 0 < a1 -> 0 < b1 -> rect3 a2 b2 c2 background_corr -> 0 < a2 -> 0 < b2 -> rect a3 b3 bratios -> 0 < a3 -> rect a4 b4 pbg -> 0 < a4 -> rect a5 b5 pbg_corr -> 0 < a5 -> rect a6 b6 pobs -> 0 < a6 ->
  mp < 0 \/ Y = 0 \/ X = 0 \/ grid_type bgrid <> points_type pts \/ (a1, b1) <> (Y, X) \/ (a2, b2, c2) <> (Y, X, nE) \/ (a3, b3) <> (Y, X) \/ (a4, b4) <> (points_size pts, nE) \/ (a5, b5) <> (points_size pts, nE) \/ (a6, b6) <> (points_size pts, nE) \/ zlen pratios <> points_size pts ->
  ebe_grid E G L RL S bgrid bratios background background_corr pts pobs pratios pbg pbg_corr mp ex = Throw InvalidArgument.
Proof. exact c121_grid. Qed.
Print Assumptions C121_grid_argument_checks.
Theorem C130_grid_argument_checks : forall E G L RL XL S bgrid bratios background background_corr pts pobs pratios pbg pbg_corr mp ex Y X a1 b1 nE a2 b2 c2 a3 b3 a4 b4 a5 b5, 0 < points_size pts -> grid_size bgrid = Ok (Y, X) ->
  rect3 a1 b1 nE background -> 0 < a1 -> 0 < b1 -> rect3 a2 b2 c2 background_corr -> 0 < a2 -> 0 < b2 -> rect a3 b3 bratios -> 0 < a3 -> rect a4 b4 pbg -> 0 < a4 -> rect a5 b5 pbg_corr -> 0 < a5 ->
  mp < 0 \/ Y = 0 \/ X = 0 \/ grid_type bgrid <> points_type pts \/ (a1, b1) <> (Y, X) \/ (a2, b2, c2) <> (Y, X, nE) \/ (a3, b3) <> (Y, X) \/ (a4, b4) <> (points_size pts, nE) \/ (a5, b5) <> (points_size pts, nE) \/ zlen pobs <> points_size pts \/ zlen pratios <> points_size pts ->
  utem_grid E G L RL XL S bgrid bratios background background_corr pts pobs pratios pbg pbg_corr mp ex = Throw InvalidArgument.
Proof. exact c130_grid. Qed.
Print Assumptions C130_grid_argument_checks.
(** a 2 x 2 grid with one station, whose background for the correlations has too few members *)
Example checks_example : 0 < points_size (xpts [0]) /\ grid_size grid22 = Ok (2, 2) /\ rect3 2 2 2 [[[fz 7; fz 1]; [fz 7; fz 2]]; [[fz 9; fz 3]; [fz 10; fz 4]]] /\ rect 2 2 [[fz 1; fz 1]; [fz 1; fz 2]] /\
  rect 1 2 [[fz 2; fz 3]] /\ rect 1 1 [[fz 2]] /\ rect 1 2 [[fz 5; fz 6]] /\ (1, 1) <> (points_size (xpts [0]), 2).
Proof.
  split; [reflexivity|]. split; [reflexivity|]. split. { split; [split; [reflexivity|intros r K; repeat (destruct K as [<-|K]; [reflexivity|]); contradiction]|]. intros r c K K'. repeat (destruct K as [<-|K]; [repeat (destruct K' as [<-|K']; [reflexivity|]); contradiction|]). contradiction. }
  repeat (split; [split; [reflexivity|intros r K; repeat (destruct K as [<-|K]; [reflexivity|]); contradiction]|]). vm_compute. discriminate.
Qed.
