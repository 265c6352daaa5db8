(** The Grid version, the size checks and the counterexample. *)
From Verif Require Import Base QcTac ListLib M_Geo S_Geo S_Near M_OI M_EnsMulti S_OI S_EnsMulti P_Geo P_OISum P_Grid P_OI P_OIGrid P_OIInv P_OIRef P_EnsMulti P_EnsAll.
Local Open Scope Z_scope.

Lemma rect3_concat Y X E (f : vec3) : rect3 Y X E f -> rect (Y * X) E (concat f).
Proof.
  intros [R H]. split; [apply zlen_concat; exact R|]. intros c Hc. apply in_concat in Hc as (r & Hr & Hc). eapply H; eauto.
Qed.
Lemma mapM_row (c : vec) : mapM (fun e => znth c e) (zrange 0 (zlen c)) = Ok c.
Proof.
  transitivity (mapM (fun i => a <- znth c i ;; Ok a) (zrange 0 (zlen c))); [apply mapM_ext; intros i _; destruct (znth c i); reflexivity|].
  rewrite (mapM_zrange_znth Ok). induction c as [|a c IH]; cbn; [reflexivity|]. rewrite IH. reflexivity.
Qed.
Lemma get2_In2 {A} (f : list (list A)) y x c : get2 f y x = Ok c -> exists r, In r f /\ In c r.
Proof. unfold get2. intros H. apply bind_Ok in H as (r & H1 & H2). exists r. split; eapply znth_In; eauto. Qed.
Lemma flat3_ok Y X E (f : vec3) : 0 <= Y -> 0 <= X -> rect3 Y X E f -> flat3 Y X E f = Ok (concat f).
Proof.
  intros HY HX [R H]. unfold flat3.
  replace (tab2 Y X (fun y x => mapM (fun e => get3 f y x e) (zrange 0 E))) with (tab2 Y X (fun y x => get2 f y x)); [rewrite (tab2_get2 Y X) by assumption; reflexivity|].
  unfold tab2. apply mapM_ext. intros y Hy. apply in_zrange in Hy. apply mapM_ext. intros x Hx. apply in_zrange in Hx.
  destruct (rect_get2 _ _ _ y x R) as [c Hc]; [lia|lia|]. unfold get3. rewrite Hc. cbn [bind]. destruct (get2_In2 _ _ _ _ Hc) as (r & H1 & H2). rewrite <- (H r c H1 H2). symmetry. apply mapM_row.
Qed.
Lemma unflat3_ok Y X E (l : vec2) : 0 <= Y -> 0 <= X -> rect (Y * X) E l -> exists out, unflat3 Y X E l = Ok out /\ rect3 Y X E out /\
  forall y x e, 0 <= y < Y -> 0 <= x < X -> get3 out y x e = get2 l (y * X + x) e.
Proof.
  intros HY HX [L1 L2]. destruct (tab2_total Y X (fun y x => mapM (fun e => get2 l (y * X + x) e) (zrange 0 E)) (fun y x v => znth l (y * X + x) = Ok v) HY HX) as (out & Eo & R & HE).
  - intros y x Hy Hx. destruct (znth_some l (y * X + x)) as [v Hv]; [nia|]. exists v. split; [|exact Hv]. unfold get2. rewrite Hv. cbn [bind].
    rewrite <- (L2 v) by (eapply znth_In; eauto). apply mapM_row.
  - exists out. split; [exact Eo|]. split; [split; [exact R|]|].
    + intros r c Hr Hc. apply In_znth in Hr as [y Hy]. apply In_znth in Hc as [x Hx]. pose proof (znth_range _ _ _ Hy) as Ry. pose proof (znth_range _ _ _ Hx) as Rx.
      destruct R as [R1 R2]. rewrite (R2 r) in Rx by (eapply znth_In; eauto). destruct (HE y x) as (v & G1 & _ & G2); [lia|lia|].
      unfold get2 in G1. rewrite Hy in G1. cbn [bind] in G1. assert (v = c) as -> by congruence. apply L2. exact (znth_In _ _ _ G2).
    + intros y x e Hy Hx. destruct (HE y x Hy Hx) as (v & G1 & _ & G2). unfold get3, get2 at 2. rewrite G1, G2. reflexivity.
Qed.
Lemma sized_ok n m f : 0 < n -> rect n m f -> sized n m f = Ok tt.
Proof.
  intros Hn [R1 R2]. unfold sized. destruct (znth_some f 0 ltac:(lia)) as [r0 Hr]. rewrite Hr. cbn [bind]. rewrite R1, (R2 r0) by (eapply znth_In; eauto). rewrite !Z.eqb_refl. reflexivity.
Qed.
(** C108 *)
Lemma c108_all : forall G L S t Y X lats lons g las los pts loc rho bg bratios background pobs pratios pbg mp ex nE,
  gsetting G L S t Y X lats lons g las los pts loc rho bg -> las <> [] -> 0 <= mp ->
  rect Y X bratios -> rect3 Y X nE background -> rect (zlen las) nE pobs -> rect (zlen las) nE pbg -> zlen pratios = zlen las ->
  exists P, to_points g = Ok P /\ setting G L S t (concat lats) (concat lons) P las los pts loc rho bg /\
  (forall o1, ebesc G L S P (concat bratios) (concat background) pts pobs pratios pbg mp ex = Ok o1 -> rect (Y * X) nE o1 ->
     exists out, ebesc_grid G L S g bratios background pts pobs pratios pbg mp ex = Ok out /\ rect3 Y X nE out /\
       forall y x e, 0 <= y < Y -> 0 <= x < X -> get3 out y x e = get2 o1 (y * X + x) e) /\
  (forall er, ebesc G L S P (concat bratios) (concat background) pts pobs pratios pbg mp ex = Throw er ->
     ebesc_grid G L S g bratios background pts pobs pratios pbg mp ex = Throw er).
Proof.
  intros G L S t Y X lats lons g las los pts loc rho bg bratios background pobs pratios pbg mp ex nE HSet NL Hmp RR RB RO RG LR.
  destruct (g_setting _ _ _ _ _ _ _ _ _ _ _ _ _ _ _ HSet) as (P & EP & ES & E2 & E3 & E4 & E5 & HY & HX & E6 & _).
  exists P. split; [exact EP|]. split; [exact ES|].
  assert (Hn : 0 < zlen las) by (destruct las as [|q l]; [congruence|]; rewrite zlen_cons; pose proof (zlen_nonneg l); lia).
  assert (EQ : ebesc_grid G L S g bratios background pts pobs pratios pbg mp ex =
    (o1 <- ebesc G L S P (concat bratios) (concat background) pts pobs pratios pbg mp ex ;; unflat3 Y X nE o1)).
  { unfold ebesc_grid. replace (mp <? 0) with false by lia. rewrite E4. replace (zlen las =? 0) with false by lia. rewrite E5. cbn [bind].
    replace ((Y =? 0) || (X =? 0))%bool with false by lia. rewrite E2, E3. replace (negb _) with false by (destruct t; reflexivity).
    destruct RB as [[RB1 RB2] RB3]. destruct (znth_some background 0 ltac:(lia)) as [r0 Hr0]. rewrite Hr0. cbn [bind].
    pose proof (RB2 _ (znth_In _ _ _ Hr0)) as Lr. destruct (znth_some r0 0 ltac:(lia)) as [e0 He0]. rewrite He0. cbn [bind].
    pose proof (RB3 _ _ (znth_In _ _ _ Hr0) (znth_In _ _ _ He0)) as Le. rewrite RB1, Lr, Le, !Z.eqb_refl. cbn [negb andb].
    rewrite !sized_ok by (assumption || lia). cbn [bind]. rewrite LR, Z.eqb_refl. cbn [negb]. rewrite EP. cbn [bind].
    rewrite flat_ok by (assumption || lia). cbn [bind]. rewrite flat3_ok; [reflexivity|lia|lia|]. split; [split|]; assumption. }
  split.
  - intros o1 H R1. rewrite EQ, H. cbn [bind]. apply unflat3_ok; [lia|lia|exact R1].
  - intros er H. rewrite EQ, H. reflexivity.
Qed.
(** C107 *)
Lemma c107_all : forall G L S bpts bratios background pts pobs pratios pbg mp ex,
  (mp < 0 \/ points_type bpts <> points_type pts \/ zlen background <> points_size bpts \/ zlen bratios <> points_size bpts \/
   zlen pobs <> points_size pts \/ zlen pratios <> points_size pts \/ zlen pbg <> points_size pts) ->
  ebesc G L S bpts bratios background pts pobs pratios pbg mp ex = Throw InvalidArgument.
Proof.
  intros. unfold ebesc. destruct (mp <? 0) eqn:E1; [reflexivity|].
  destruct (negb (match points_type bpts, points_type pts with Geodetic, Geodetic => true | Cartesian, Cartesian => true | _, _ => false end)) eqn:E2; [reflexivity|].
  destruct (zlen background =? points_size bpts) eqn:E3; [cbn [negb]|reflexivity].
  destruct (zlen bratios =? points_size bpts) eqn:E4; [cbn [negb]|reflexivity].
  destruct (zlen pobs =? points_size pts) eqn:E5; [cbn [negb]|reflexivity].
  destruct (zlen pratios =? points_size pts) eqn:E6; [cbn [negb]|reflexivity].
  destruct (zlen pbg =? points_size pts) eqn:E7; [cbn [negb]|reflexivity].
  exfalso. destruct H as [H|[H|H]]; [lia| |lia]. apply H. destruct (points_type bpts), (points_type pts); try reflexivity; discriminate.
Qed.
(** C105: a missing first member *)
Lemma c104_refuted : exists G L S t blas blos bpts las los pts loc rho bg background pobs pbg,
  setting G L S t blas blos bpts las los pts loc rho bg /\ rect 1 2 background /\ rect 1 2 pobs /\ rect 1 2 pbg /\
  complete 1 background /\ complete 1 pbg /\ complete 0 pbg /\ get2 background 0 0 = Ok NaN /\
  ebesc G L S bpts [fz 1] background pts pobs [fz 1] pbg 0 true = Throw LogicError.
Proof.
  exists G0, L0, (sf0 (qz 10)), Cartesian, (zeros [2]), (map qz [2]), (xpts [2]), (zeros [0]), (map qz [0]), (xpts [0]), (fun _ => Fin (qz 10)), kern, kern,
    [[NaN; fz 7]], [[fz 1; fz 2]], [[fz 3; fz 4]].
  assert (R : forall a b : val, rect 1 2 [[a; b]]) by (intros; split; [reflexivity|intros r [<- |[]]; reflexivity]).
  split; [apply setting0; pts_now|]. split; [apply R|]. split; [apply R|]. split; [apply R|].
  split; [intros v [<- |[]]; eexists; reflexivity|]. split; [intros v [<- |[]]; eexists; reflexivity|]. split; [intros v [<- |[]]; eexists; reflexivity|].
  split; [reflexivity|]. vm_compute. reflexivity.
Qed.

From Verif Require Import S_EnsMulti.
(** the statements over bundled arguments *)
Lemma c104_partial : forall G L S t blas blos bpts las los pts loc rho bg nE m bratios background pobs pratios pbg mp ex out r ratio,
  setting G L S t blas blos bpts las los pts loc rho bg ->
  ens_input (zlen blas) (zlen las) nE m bratios background pobs pratios pbg -> 0 <= mp ->
  ebesc G L S bpts bratios background pts pobs pratios pbg mp ex = Ok out -> known_ratios pts (zlen las) rho pratios r ratio ->
  (forall k o e, get2 pobs k 0 = Ok (Fin o) -> 0 <= e < m -> exists o', get2 pobs k e = Ok (Fin o')) ->
  rect (zlen blas) nE out /\
  (forall y e, m <= e < nE -> get2 out y e = get2 background y e) /\
  (forall y s p1 pos g, znth bratios y = Ok (Fin s) -> bpoint G t blas blos bpts y p1 pos -> known_cell pts bg p1 g ->
     exists U, chosen G t las los pts (col 0 pobs) (col 0 pobs) loc bg mp p1 pos U /\
       forall e b d, 0 <= e < m -> get2 background y e = Ok (Fin b) -> departures (col e pobs) (col e pbg) d ->
       exists o, get2 out y e = Ok o /\ member_analysis U r ratio g d s ex b o).
Proof. intros until ratio. intros HS [E1 E2 E3 E4 E5 E6 E7 E8] Hmp. eapply (c104_all _ _ _ _ _ _ _ _ _ _ _ _ _ _ _ _ _ _ _ _ nE m HS); eauto. Qed.
Lemma c105_total : forall G L S t blas blos bpts las los pts loc rho bg nE m bratios background pobs pratios pbg mp ex,
  setting G L S t blas blos bpts las los pts loc rho bg ->
  ens_input (zlen blas) (zlen las) nE m bratios background pobs pratios pbg -> 0 <= mp -> (blas <> [] \/ las = []) ->
  ((exists out, ebesc G L S bpts bratios background pts pobs pratios pbg mp ex = Ok out) \/
   ebesc G L S bpts bratios background pts pobs pratios pbg mp ex = Throw RuntimeError) /\
  (forall r ratio, known_ratios pts (zlen las) rho pratios r ratio ->
     (forall U c, NoDup U -> (forall k, In k U -> 0 <= k < zlen las) -> (0 <= tot U (fun k => tot U (fun j => c k * c j * r k j)))%Qc) ->
     (forall k, 0 <= k < zlen las -> (0 < ratio k)%Qc) ->
     exists out, ebesc G L S bpts bratios background pts pobs pratios pbg mp ex = Ok out).
Proof. intros until ex. intros HS [E1 E2 E3 E4 E5 E6 E7 E8] Hmp. eapply (c105_all _ _ _ _ _ _ _ _ _ _ _ _ _ _ _ _ _ _ _ _ nE m HS); eauto. Qed.
Lemma c106_same : forall G L S t blas blos bpts las los pts loc rho bg nE m bratios background pobs pratios pbg mp out e,
  setting G L S t blas blos bpts las los pts loc rho bg ->
  ens_input (zlen blas) (zlen las) nE m bratios background pobs pratios pbg -> 0 <= mp ->
  ebesc G L S bpts bratios background pts pobs pratios pbg mp true = Ok out ->
  (forall s, In s bratios -> s = fz 1) -> 0 <= e < m ->
  (forall k v0 v, get2 pobs k 0 = Ok v0 -> get2 pobs k e = Ok v -> is_valid v = is_valid v0) -> (forall v, In v pratios -> is_valid v = true) ->
  oi_points G L S bpts (col e background) pts (col e pobs) pratios (col e pbg) mp true = Ok (col e out).
Proof.
  intros until e. intros HS [E1 E2 E3 E4 E5 E6 E7 E8] Hmp H Hs He HV HR.
  eapply (c106_all _ _ _ _ _ _ _ _ _ _ _ _ _ _ _ _ _ _ _ _ nE m HS); eauto.
  - intros y Hy. destruct (znth_some bratios y ltac:(lia)) as [s Es]. rewrite Es. f_equal. apply Hs. eapply znth_In; eauto.
  - intros k Hk. destruct (rect_get2 _ _ pobs k e E3 Hk ltac:(lia)) as [v Ev]. destruct (rect_get2 _ _ pobs k 0 E3 Hk ltac:(lia)) as [v0 Ev0].
    pose proof (vk_col e _ _ _ k E3 Hk ltac:(lia)) as A1. pose proof (vk_col 0 _ _ _ k E3 Hk ltac:(lia)) as A2. eauto.
Qed.
