(** Size checks of the Grid versions of the ensemble analyses. *)
From Verif Require Import Base QcTac ListLib RBase M_Geo S_Geo M_Stat S_Near M_OI M_EnsMulti M_Ensi M_EnsDyn M_EnsUtem.
Local Open Scope Z_scope.

Lemma head2 {A} n m (f : list (list A)) : rect n m f -> 0 < n -> exists r, znth f 0 = Ok r /\ zlen r = m.
Proof. intros [R1 R2] H. destruct (znth_some f 0 ltac:(lia)) as [r Hr]. exists r. split; auto. apply R2. eapply znth_In; eauto. Qed.
Lemma head3 {A} n m k (f : list (list (list A))) : rect3 n m k f -> 0 < n -> 0 < m -> exists r e, znth f 0 = Ok r /\ zlen r = m /\ znth r 0 = Ok e /\ zlen e = k.
Proof.
  intros [R1 R2] Hn Hm. destruct (head2 n m f R1 Hn) as (r & Hr & Lr). destruct (znth_some r 0 ltac:(lia)) as [e He]. exists r, e. repeat split; auto. apply (R2 r e); eapply znth_In; eauto.
Qed.
Lemma sized_dec a b f n m : rect a b f -> 0 < a -> sized n m f = if (a =? n) && (b =? m) then Ok tt else Throw InvalidArgument.
Proof. intros R H. destruct (head2 a b f R H) as (r & Hr & Lr). unfold sized. rewrite Hr. cbn [bind]. rewrite (proj1 R), Lr. reflexivity. Qed.
Lemma sized3_dec a b c f n m k : rect3 a b c f -> 0 < a -> 0 < b -> sized3 n m k f = if (a =? n) && (b =? m) && (c =? k) then Ok tt else Throw InvalidArgument.
Proof. intros R H H'. destruct (head3 a b c f R H H') as (r & e & Hr & Lr & He & Le). unfold sized3. rewrite Hr. cbn [bind]. rewrite He. cbn [bind]. rewrite (proj1 (proj1 R)), Lr, Le. reflexivity. Qed.
Ltac step := match goal with
  | |- (if ?b then Throw InvalidArgument else _) = _ => let E := fresh "E" in destruct b eqn:E; [reflexivity|]
  | |- (_ <- (if ?b then Ok tt else Throw InvalidArgument) ;; _) = _ => let E := fresh "E" in destruct b eqn:E; [cbn [bind]|reflexivity]
  end.
Ltac types := match goal with E : negb (match grid_type ?g with _ => _ end) = false, H : grid_type ?g <> points_type ?p |- _ => exfalso; destruct (grid_type g), (points_type p); try discriminate E; try (apply H; reflexivity) end.

Lemma c107_grid G L S bgrid bratios background pts pobs pratios pbg mp ex Y X a1 b1 nE a3 b3 a4 b4 a6 b6 : 0 < points_size pts -> grid_size bgrid = Ok (Y, X) ->
  rect3 a1 b1 nE background -> 0 < a1 -> 0 < b1 -> rect a3 b3 bratios -> 0 < a3 -> rect a4 b4 pbg -> 0 < a4 -> rect a6 b6 pobs -> 0 < a6 ->
  mp < 0 \/ Y = 0 \/ X = 0 \/ grid_type bgrid <> points_type pts \/ (a1, b1) <> (Y, X) \/ (a3, b3) <> (Y, X) \/ (a4, b4) <> (points_size pts, nE) \/ (a6, b6) <> (points_size pts, nE) \/ zlen pratios <> points_size pts ->
  ebesc_grid G L S bgrid bratios background pts pobs pratios pbg mp ex = Throw InvalidArgument.
Proof.
  intros HS HZ R1 A1 B1 R3 A3 R4 A4 R6 A6 BAD. unfold ebesc_grid. step. cbv zeta. replace (points_size pts =? 0) with false by lia. rewrite HZ. cbn [bind]. step. step.
  destruct (head3 _ _ _ _ R1 A1 B1) as (r & e & Hr & Lr & He & Le). rewrite Hr. cbn [bind]. rewrite He. cbn [bind]. rewrite Lr, Le, (proj1 (proj1 R1)), (sized_dec a3 b3), (sized_dec a4 b4), (sized_dec a6 b6) by auto.
  repeat step. exfalso. destruct BAD as [H|[H|[H|[H|[H|[H|[H|[H|H]]]]]]]]; try lia; [types|..]; apply H; f_equal; lia.
Qed.
Lemma c121_grid E G L RL S bgrid bratios background background_corr pts pobs pratios pbg pbg_corr mp ex Y X a1 b1 nE a2 b2 c2 a3 b3 a4 b4 a5 b5 a6 b6 : 0 < points_size pts -> grid_size bgrid = Ok (Y, X) ->
  rect3 a1 b1 nE background -> 0 < a1 -> 0 < b1 -> rect3 a2 b2 c2 background_corr -> 0 < a2 -> 0 < b2 -> rect a3 b3 bratios -> 0 < a3 -> rect a4 b4 pbg -> 0 < a4 -> rect a5 b5 pbg_corr -> 0 < a5 -> rect a6 b6 pobs -> 0 < a6 ->
  mp < 0 \/ Y = 0 \/ X = 0 \/ grid_type bgrid <> points_type pts \/ (a1, b1) <> (Y, X) \/ (a2, b2, c2) <> (Y, X, nE) \/ (a3, b3) <> (Y, X) \/ (a4, b4) <> (points_size pts, nE) \/ (a5, b5) <> (points_size pts, nE) \/ (a6, b6) <> (points_size pts, nE) \/ zlen pratios <> points_size pts ->
  ebe_grid E G L RL S bgrid bratios background background_corr pts pobs pratios pbg pbg_corr mp ex = Throw InvalidArgument.
Proof.
  intros HS HZ R1 A1 B1 R2 A2 B2 R3 A3 R4 A4 R5 A5 R6 A6 BAD. unfold ebe_grid. step. cbv zeta. replace (points_size pts =? 0) with false by lia. rewrite HZ. cbn [bind]. step. step.
  destruct (head3 _ _ _ _ R1 A1 B1) as (r & e & Hr & Lr & He & Le). rewrite Hr. cbn [bind]. rewrite He. cbn [bind]. rewrite Lr, Le, (proj1 (proj1 R1)), (sized3_dec a2 b2 c2), (sized_dec a3 b3), (sized_dec a4 b4), (sized_dec a5 b5), (sized_dec a6 b6) by auto.
  repeat step. exfalso. destruct BAD as [H|[H|[H|[H|[H|[H|[H|[H|[H|[H|H]]]]]]]]]]; try lia; [types|..]; apply H; f_equal; try f_equal; lia.
Qed.
Lemma c130_grid E G L RL XL S bgrid bratios background background_corr pts pobs pratios pbg pbg_corr mp ex Y X a1 b1 nE a2 b2 c2 a3 b3 a4 b4 a5 b5 : 0 < points_size pts -> grid_size bgrid = Ok (Y, X) ->
  rect3 a1 b1 nE background -> 0 < a1 -> 0 < b1 -> rect3 a2 b2 c2 background_corr -> 0 < a2 -> 0 < b2 -> rect a3 b3 bratios -> 0 < a3 -> rect a4 b4 pbg -> 0 < a4 -> rect a5 b5 pbg_corr -> 0 < a5 ->
  mp < 0 \/ Y = 0 \/ X = 0 \/ grid_type bgrid <> points_type pts \/ (a1, b1) <> (Y, X) \/ (a2, b2, c2) <> (Y, X, nE) \/ (a3, b3) <> (Y, X) \/ (a4, b4) <> (points_size pts, nE) \/ (a5, b5) <> (points_size pts, nE) \/ zlen pobs <> points_size pts \/ zlen pratios <> points_size pts ->
  utem_grid E G L RL XL S bgrid bratios background background_corr pts pobs pratios pbg pbg_corr mp ex = Throw InvalidArgument.
Proof.
  intros HS HZ R1 A1 B1 R2 A2 B2 R3 A3 R4 A4 R5 A5 BAD. unfold utem_grid. step. cbv zeta. replace (points_size pts =? 0) with false by lia. rewrite HZ. cbn [bind]. step. step.
  destruct (head3 _ _ _ _ R1 A1 B1) as (r & e & Hr & Lr & He & Le). rewrite Hr. cbn [bind]. rewrite He. cbn [bind]. rewrite Lr, Le, (proj1 (proj1 R1)), (sized3_dec a2 b2 c2), (sized_dec a3 b3), (sized_dec a4 b4), (sized_dec a5 b5) by auto.
  repeat step. exfalso. destruct BAD as [H|[H|[H|[H|[H|[H|[H|[H|[H|[H|H]]]]]]]]]]; try lia; [types|..]; apply H; f_equal; try f_equal; lia.
Qed.
Lemma c116_grid E G L EL S bgrid background pts pobs psigmas pbg mp ex Y X a1 b1 nE a4 b4 : 0 < points_size pts -> grid_size bgrid = Ok (Y, X) ->
  rect3 a1 b1 nE background -> 0 < a1 -> 0 < b1 -> rect a4 b4 pbg -> 0 < a4 ->
  mp < 0 \/ Y = 0 \/ X = 0 \/ grid_type bgrid <> points_type pts \/ (a1, b1) <> (Y, X) \/ b4 <> nE \/ zlen pobs <> points_size pts \/ zlen psigmas <> points_size pts ->
  ensi_grid E G L EL S bgrid background pts pobs psigmas pbg mp ex = Throw InvalidArgument.
Proof.
  intros HS HZ R1 A1 B1 R4 A4 BAD. unfold ensi_grid. step. cbv zeta. replace (points_size pts =? 0) with false by lia. rewrite HZ. cbn [bind]. step. step.
  destruct (head3 _ _ _ _ R1 A1 B1) as (r & e & Hr & Lr & He & Le). destruct (head2 _ _ _ R4 A4) as (p & Hp & Lp). rewrite Hr. cbn [bind]. rewrite Lr, (proj1 (proj1 R1)). step. rewrite He. cbn [bind]. rewrite Le, Hp. cbn [bind]. rewrite Lp.
  repeat step. exfalso. destruct BAD as [H|[H|[H|[H|[H|[H|[H|H]]]]]]]; try lia; [types|..]; apply H; f_equal; lia.
Qed.
