(** C52 and C71: gradient downscaling, all overloads. *)
From Verif Require Import QcTac Base ListLib M_Stat M_Neigh S_Stat P_Stat S_Neigh M_Geo M_Near M_Bilin S_Geo P_Geo P_Grid P_Points P_Near P_BilinGrid M_Down S_Down P_Grad.

Lemma c52_simple E G t t' Y X lats lons ig d : is_grid G t Y X lats lons ig ->
  (forall Y' X' lats' lons' og, is_grid G t' Y' X' lats' lons' og ->
    let down f := downscaling_gg2 E G ig og f d in
    (forall v dv de g, rect Y X v -> down v = Ok dv -> down (g_elevs ig) = Ok de ->
      exists out, simple_gradient_gg2 E G ig og v g d = Ok out /\ simple_cells Y' X' (g_elevs og) de dv g out) /\
    (forall v dv de g, v <> [] -> Forall (rect Y X) v -> Forall2 (fun f o => down f = Ok o) v dv -> down (g_elevs ig) = Ok de ->
      exists out, simple_gradient_gg3 E G ig og v g d = Ok out /\ Forall2 (fun dvt ot => simple_cells Y' X' (g_elevs og) de dvt g ot) dv out)) /\
  (forall las' los' op, is_points G t' las' los' op ->
    let down f := downscaling_gp2 E G ig op f d in
    (forall v dv de g, rect Y X v -> down v = Ok dv -> down (g_elevs ig) = Ok de ->
      exists out, simple_gradient_gp2 E G ig op v g d = Ok out /\ simple_points (zlen las') (s_elevs op) de dv g out) /\
    (forall v dv de g, v <> [] -> Forall (rect Y X) v -> Forall2 (fun f o => down f = Ok o) v dv -> down (g_elevs ig) = Ok de ->
      exists out, simple_gradient_gp3 E G ig op v g d = Ok out /\ Forall2 (fun dvt ot => simple_points (zlen las') (s_elevs op) de dvt g ot) dv out)).
Proof.
  intros HI. split.
  - intros Y' X' lats' lons' og HO. split; intros; [eapply simple_gg2_ok|eapply simple_gg3_ok]; eauto.
  - intros las' los' op HO. split; intros; [eapply simple_gp2_ok|eapply simple_gp3_ok]; eauto.
Qed.
Lemma c52_full E G t t' Y X lats lons ig d : is_grid G t Y X lats lons ig ->
  (forall Y' X' lats' lons' og, is_grid G t' Y' X' lats' lons' og ->
    let down f := downscaling_gg2 E G ig og f d in
    (forall v eg lg dv pe pl, rect Y X v -> (eg = [] \/ rect Y X eg) -> (lg = [] \/ rect Y X lg) -> down v = Ok dv ->
      plain down eg (g_elevs ig) pe -> plain down lg (g_lafs ig) pl ->
      exists out, full_gradient_gg2 E G ig og v eg lg d = Ok out /\ full_cells Y' X' (g_elevs og) (g_lafs og) pe pl dv out) /\
    (forall v eg lg dv pe pl, v <> [] -> Forall (rect Y X) v -> Forall (rect Y X) eg -> Forall (rect Y X) lg -> Forall2 (fun f o => down f = Ok o) v dv ->
      plain3 down eg (g_elevs ig) (zlen v) pe -> plain3 down lg (g_lafs ig) (zlen v) pl ->
      exists out, full_gradient_gg3 E G ig og v eg lg d = Ok out /\ each_time (full_cells Y' X' (g_elevs og) (g_lafs og)) pe pl dv out)) /\
  (forall las' los' op, is_points G t' las' los' op ->
    let down f := downscaling_gp2 E G ig op f d in
    (forall v eg lg dv pe pl, rect Y X v -> (eg = [] \/ rect Y X eg) -> (lg = [] \/ rect Y X lg) -> down v = Ok dv ->
      plain down eg (g_elevs ig) pe -> plain down lg (g_lafs ig) pl ->
      exists out, full_gradient_gp2 E G ig op v eg lg d = Ok out /\ full_points (zlen las') (s_elevs op) (s_lafs op) pe pl dv out) /\
    (forall v eg lg dv pe pl, v <> [] -> Forall (rect Y X) v -> Forall (rect Y X) eg -> Forall (rect Y X) lg -> Forall2 (fun f o => down f = Ok o) v dv ->
      plain3 down eg (g_elevs ig) (zlen v) pe -> plain3 down lg (g_lafs ig) (zlen v) pl ->
      exists out, full_gradient_gp3 E G ig op v eg lg d = Ok out /\ each_time (full_points (zlen las') (s_elevs op) (s_lafs op)) pe pl dv out)).
Proof.
  intros HI. split.
  - intros Y' X' lats' lons' og HO. split; intros; [eapply full_gg2_ok|eapply full_gg3_ok]; eauto.
  - intros las' los' op HO. split; intros; [eapply full_gp2_ok|eapply full_gp3_ok]; eauto.
Qed.
(** what the values mean: no correction for gradient 0, equal elevations or (full_gradient) missing elevation or gradient *)
Lemma no_effect_corr g o i c : no_effect g o i -> correction_of g o i c -> c = Fin 0%Qc.
Proof.
  unfold correction_of. intros [->|[H|[H|[(k & a & -> & -> & ->)|(a & b & -> & -> & ->)]]]] C.
  - exact C.
  - destruct o; try discriminate; destruct g as [[]|]; exact C.
  - destruct i; try discriminate; destruct g as [[]|]; try exact C; destruct o; exact C.
  - rewrite C. f_equal. ring.
  - rewrite C. f_equal. ring.
Qed.
Lemma c52_no_correction v ge oe ie gl ol il r :
  (no_effect ge oe ie -> no_effect gl ol il -> full_value (Fin v) ge oe ie gl ol il r -> r = Fin v) /\
  (forall a k, simple_value (Fin v) (Fin a) (Fin a) (Fin k) r -> r = Fin v) /\
  (forall a b, simple_value (Fin v) (Fin a) (Fin b) (Fin 0%Qc) r -> r = Fin v).
Proof.
  split; [|split].
  - intros H1 H2 (ce & cl & C1 & C2 & H). rewrite (no_effect_corr _ _ _ _ H1 C1), (no_effect_corr _ _ _ _ H2 C2) in H. rewrite H. f_equal. ring.
  - cbn. intros a k ->. f_equal. ring.
  - cbn. intros a b ->. f_equal. ring.
Qed.
(** simple_gradient with a grid that has no elevations: plain downscaling gives a number, simple_gradient nothing, even with gradient 0 *)
Lemma c52_missing_elevation_refuted : exists E G ig og v dv out, geo_ok G /\
  is_grid G Cartesian 1 1 [[0]]%Qc [[0]]%Qc ig /\ is_grid G Cartesian 1 1 [[0]]%Qc [[0]]%Qc og /\ rect 1 1 v /\
  downscaling_gg2 E G ig og v Nearest = Ok dv /\ get2 dv 0 0 = Ok (fz 5) /\
  simple_gradient_gg2 E G ig og v (fz 0) Nearest = Ok out /\ get2 out 0 0 = Ok NaN.
Proof.
  destruct (mk_grid G0 (mFin [[0]]%Qc) (mFin [[0]]%Qc) [] [] Cartesian) as [g| | |] eqn:Eg; try (vm_compute in Eg; discriminate).
  assert (RE : forall (A : Type) (a : A), rect 1 1 [[a]]) by (intros; split; [reflexivity|intros r [<-|[]]; reflexivity]).
  assert (HG : is_grid G0 Cartesian 1 1 [[0]]%Qc [[0]]%Qc g). { repeat (split; [lia|]). split; [apply RE|]. split; [apply RE|]. exists [], []. auto. }
  exists E0, G0, g, g, [[fz 5]]. vm_compute in Eg. injection Eg as <-. eexists _, _. split; [exact geo_ok_G0|]. split; [exact HG|]. split; [exact HG|]. split; [apply RE|].
  split; [vm_compute; reflexivity|]. split; [vcalc|]. split; [vm_compute; reflexivity|]. reflexivity.
Qed.
(** ** full_gradient_debug *)
Lemma vadd_assoc a b c : vadd (vadd a b) c = vadd a (vadd b c).
Proof. destruct a, b, c; cbn; try reflexivity. f_equal. ring. Qed.
Lemma vadd_comm a b : vadd a b = vadd b a.
Proof. destruct a, b; cbn; try reflexivity. f_equal. ring. Qed.
Lemma c71_debug E G t t' Y X Y' X' lats lons lats' lons' ig og d : is_grid G t Y X lats lons ig -> is_grid G t' Y' X' lats' lons' og ->
  let down f := downscaling_gg2 E G ig og f d in
  forall v eg lg dv deg dlg de dl, rect Y X v -> rect Y X eg -> rect Y X lg ->
  down v = Ok dv -> down eg = Ok deg -> down lg = Ok dlg -> down (g_elevs ig) = Ok de -> down (g_lafs ig) = Ok dl ->
  exists out, full_gradient_debug E G ig og v eg lg d = Ok out /\ debug_cells Y' X' (g_elevs og) (g_lafs og) de dl deg dlg dv out.
Proof.
  intros HI HO down v eg lg dv deg dlg de dl Rv Re Rl Hv He Hl HE HL. unfold full_gradient_debug. rewrite (grid_size_ok _ _ _ _ _ _ _ HO). cbn [bind].
  destruct (is_grid_pos _ _ _ _ _ _ _ HI) as [PY PX]. destruct (is_grid_pos _ _ _ _ _ _ _ HO) as [PY' PX'].
  fold (down v) (down eg) (down lg) (down (g_elevs ig)) (down (g_lafs ig)). rewrite Hv, He, Hl, HE, HL. cbn [bind].
  rewrite (proj2 (Z.eqb_neq (zlen eg) 0)) by (destruct Re; lia). rewrite (proj2 (Z.eqb_neq (zlen lg) 0)) by (destruct Rl; lia). cbn [negb bind].
  assert (DR : forall f o, rect Y X f -> down f = Ok o -> rect Y' X' o). { intros f o R H. apply (down_gg2_inv E G t t' Y X Y' X' lats lons lats' lons' ig og d HI HO f o R H). }
  assert (ED : rect Y X (g_elevs ig)) by apply (grid_inv _ _ _ _ _ _ _ HI). assert (LD : rect Y X (g_lafs ig)) by apply (grid_inv _ _ _ _ _ _ _ HI).
  assert (EO : rect Y' X' (g_elevs og)) by apply (grid_inv _ _ _ _ _ _ _ HO). assert (LO : rect Y' X' (g_lafs og)) by apply (grid_inv _ _ _ _ _ _ _ HO).
  pose proof (DR _ _ Rv Hv) as R1. pose proof (DR _ _ Re He) as R2. pose proof (DR _ _ Rl Hl) as R3. pose proof (DR _ _ ED HE) as R4. pose proof (DR _ _ LD HL) as R5.
  match goal with |- context[tab2 Y' X' ?body] => destruct (tab2_total Y' X' body (fun i j c => exists v e f a b kg kl,
    get2 dv i j = Ok v /\ get2 (g_elevs og) i j = Ok e /\ get2 (g_lafs og) i j = Ok f /\ get2 de i j = Ok a /\ get2 dl i j = Ok b /\
    get2 deg i j = Ok kg /\ get2 dlg i j = Ok kl /\ debug_value v kg e a kl f b c)) as (out & Ho & Ro & K); [lia|lia| |] end.
  - intros i j Hi Hj. destruct (rect_get2 _ _ _ _ _ R1 Hi Hj) as [x1 E1]. destruct (rect_get2 _ _ _ _ _ R2 Hi Hj) as [x2 E2]. destruct (rect_get2 _ _ _ _ _ R3 Hi Hj) as [x3 E3].
    destruct (rect_get2 _ _ _ _ _ R4 Hi Hj) as [x4 E4]. destruct (rect_get2 _ _ _ _ _ R5 Hi Hj) as [x5 E5]. destruct (rect_get2 _ _ _ _ _ EO Hi Hj) as [x6 E6]. destruct (rect_get2 _ _ _ _ _ LO Hi Hj) as [x7 E7].
    rewrite E1, E2, E3, E4, E5, E6, E7. cbn [bind].
    destruct (corr_some (zlen dlg) x7 x5 x3) as (cl & Hcl & Ccl); [destruct R3; lia|]. destruct (corr_some (zlen deg) x6 x4 x2) as (ce & Hce & Cce); [destruct R2; lia|]. rewrite Hcl, Hce. cbn [bind].
    eexists. split; [reflexivity|]. exists x1, x6, x7, x4, x5, x2, x3. repeat (split; [reflexivity|]).
    exists (vadd (vadd x1 cl) ce), (vsub x7 x5), (vsub x6 x4), ce, cl, (vadd x1 cl), (vadd x1 ce). split; [reflexivity|]. split; [rewrite vadd_assoc; apply full_ok; assumption|]. split; [exact Cce|]. split; [exact Ccl|].
    split; [intros ? ? -> ->; reflexivity|]. split; [intros ? ? -> ->; reflexivity|]. split; intros ? ? -> ->; reflexivity.
  - exists out. split; [exact Ho|]. split; [exact Ro|]. intros i j Hi Hj. destruct (K i j Hi Hj) as (c & Hc & _ & a1 & a2 & a3 & a4 & a5 & a6 & a7 & A1 & A2 & A3 & A4 & A5 & A6 & A7 & A8).
    exists a1, a2, a3, a4, a5, a6, a7, c. auto 12.
Qed.
(** without one of the two gradients (the land fraction gradient is empty by default) every call is undefined behaviour *)
Lemma c71_empty_refuted E G t t' Y X Y' X' lats lons lats' lons' ig og d : is_grid G t Y X lats lons ig -> is_grid G t' Y' X' lats' lons' og ->
  let down f := downscaling_gg2 E G ig og f d in
  forall v eg dv deg de, rect Y X v -> down v = Ok dv -> rect Y X eg -> down eg = Ok deg -> down (g_elevs ig) = Ok de ->
  full_gradient_debug E G ig og v eg [] d = UB /\ (exists out, full_gradient_gg2 E G ig og v eg [] d = Ok out).
Proof.
  intros HI HO down v eg dv deg de Rv Hv Re He HE. split.
  - unfold full_gradient_debug. rewrite (grid_size_ok _ _ _ _ _ _ _ HO). cbn [bind]. destruct (is_grid_pos _ _ _ _ _ _ _ HI) as [PY PX]. destruct (is_grid_pos _ _ _ _ _ _ _ HO) as [PY' PX'].
    fold (down v) (down eg) (down (g_elevs ig)). rewrite Hv, He, HE. cbn [bind]. rewrite (proj2 (Z.eqb_neq (zlen eg) 0)) by (destruct Re; lia). change (zlen (@nil vec) =? 0) with true. cbn [negb bind].
    assert (LO : rect Y' X' (g_lafs og)) by apply (grid_inv _ _ _ _ _ _ _ HO). destruct (rect_get2 _ _ _ 0 0 LO ltac:(lia) ltac:(lia)) as [x Hx].
    unfold tab2. rewrite (zrange_cons 0 Y') by lia. rewrite (zrange_cons 0 X') by lia. cbn [mapM bind]. rewrite Hx. reflexivity.
  - destruct (full_gg2_ok E G t t' Y X Y' X' lats lons lats' lons' ig og d HI HO v eg [] dv (Some (deg, de)) None Rv (or_intror Re) (or_introl eq_refl) Hv) as (out & Ho & _).
    + right. exists deg, de. split; [|auto]. destruct (is_grid_pos _ _ _ _ _ _ _ HI) as [PY PX]. destruct Re as [RL _]. intros ->. unfold zlen in RL. cbn in RL. lia.
    + left. auto.
    + eauto.
Qed.
Lemma c71_refuted : exists E G ig og v eg, geo_ok G /\ is_grid G Cartesian 1 1 [[0]]%Qc [[0]]%Qc ig /\ is_grid G Cartesian 1 1 [[0]]%Qc [[0]]%Qc og /\
  rect 1 1 v /\ rect 1 1 eg /\ full_gradient_debug E G ig og v eg [] Nearest = UB.
Proof.
  destruct (mk_grid G0 (mFin [[0]]%Qc) (mFin [[0]]%Qc) [] [] Cartesian) as [g| | |] eqn:Eg; try (vm_compute in Eg; discriminate).
  assert (RE : forall (A : Type) (a : A), rect 1 1 [[a]]) by (intros; split; [reflexivity|intros r [<-|[]]; reflexivity]).
  assert (HG : is_grid G0 Cartesian 1 1 [[0]]%Qc [[0]]%Qc g). { repeat (split; [lia|]). split; [apply RE|]. split; [apply RE|]. exists [], []. auto. }
  exists E0, G0, g, g, [[fz 5]], [[fz 1]]. vm_compute in Eg. injection Eg as <-. split; [exact geo_ok_G0|]. split; [exact HG|]. split; [exact HG|]. split; [apply RE|]. split; [apply RE|]. vm_compute. reflexivity.
Qed.
