(** The ensemble-based analysis: statements for the properties. *)
From Coq Require Import Lra.
From Verif Require Import Base QcTac ListLib RBase P_RBase M_Geo S_Geo M_Stat S_Near M_OI M_EnsMulti M_Ensi S_OI P_Geo P_OISum P_Grid P_OI P_OIGrid P_OIInv P_OIRef P_OIAll S_EnsMulti P_EnsMulti P_EnsGrid S_Ensi P_RSum P_EnsiAlg P_EnsiCell P_EnsiSpec P_EnsiRoot P_Ensi P_EnsiAll P_EnsiWit.
Local Open Scope Z_scope.

(** C110-C113 *)
Lemma c110_partial : forall E G L EL S t blas blos bpts las los pts loc rho bg nE background pobs psigmas pbg mp b s o out y p1 pos g x,
  setting G L S t blas blos bpts las los pts loc rho bg -> elib_ok EL ->
  ensi_input (zlen blas) (zlen las) nE background pobs psigmas pbg -> ensi_data (zlen las) nE background pobs psigmas pbg b s o -> 0 <= mp ->
  ensi E G L EL S bpts background pts pobs psigmas pbg mp true = Ok out ->
  bpoint G t blas blos bpts y p1 pos -> known_cell pts bg p1 g -> row_data nE background y x ->
  exists ms U, members_of nE background ms /\ chosen G t las los pts pobs pobs loc bg mp p1 pos U /\
    (U = [] \/ zlen ms <= 1 -> unchanged background out y) /\
    (U <> [] -> 2 <= zlen ms ->
      (solver_failed EL ms (precision U ms b s g) /\ unchanged background out y) \/
      exists a m, (forall e, In e ms -> get2 out y e = Ok (RF (a e))) /\ kalman_mean U ms x b o s g m /\ ravg ms a = qr m).
Proof.
  intros E G L EL S t blas blos bpts las los pts loc rho bg nE background pobs psigmas pbg mp b s o out y p1 pos g x HS HE HI HD Hmp H Hp Hc Hx.
  destruct (c110_sec E G L EL S t blas blos las los bpts pts background pbg pobs psigmas mp true loc rho bg nE HS HE HI Hmp b s o HD out y p1 pos g x H Hp Hc Hx) as (ms & U & H1 & H2 & H3 & H4).
  exists ms, U. repeat (split; [assumption|]). intros N1 N2. destruct (H4 N1 N2) as [HF|(a & (m & q & T & M1 & _ & _ & M4 & _) & HA)]; [left; exact HF|right].
  exists a, m. split; [|auto]. intros e He. destruct (HA e He) as (z & Hz & E1 & _). rewrite Hz, E1 by reflexivity. reflexivity.
Qed.
Lemma c111_partial : forall E G L EL S t blas blos bpts las los pts loc rho bg nE background pobs psigmas pbg mp b s o out y p1 pos g x,
  setting G L S t blas blos bpts las los pts loc rho bg -> elib_ok EL ->
  ensi_input (zlen blas) (zlen las) nE background pobs psigmas pbg -> ensi_data (zlen las) nE background pobs psigmas pbg b s o -> 0 <= mp ->
  ensi E G L EL S bpts background pts pobs psigmas pbg mp true = Ok out ->
  bpoint G t blas blos bpts y p1 pos -> known_cell pts bg p1 g -> row_data nE background y x ->
  exists ms U, members_of nE background ms /\ chosen G t las los pts pobs pobs loc bg mp p1 pos U /\
    (U = [] \/ zlen ms <= 1 -> unchanged background out y) /\
    (U <> [] -> 2 <= zlen ms ->
      (solver_failed EL ms (precision U ms b s g) /\ unchanged background out y) \/
      exists a q, (forall e, In e ms -> get2 out y e = Ok (RF (a e))) /\ kalman_var U ms x b s g q /\ rvar ms a = qr q /\ (0 <= q <= cov ms x x)%Qc).
Proof.
  intros E G L EL S t blas blos bpts las los pts loc rho bg nE background pobs psigmas pbg mp b s o out y p1 pos g x HS HE HI HD Hmp H Hp Hc Hx.
  destruct (c110_sec E G L EL S t blas blos las los bpts pts background pbg pobs psigmas mp true loc rho bg nE HS HE HI Hmp b s o HD out y p1 pos g x H Hp Hc Hx) as (ms & U & H1 & H2 & H3 & H4).
  exists ms, U. repeat (split; [assumption|]). intros N1 N2. destruct (H4 N1 N2) as [HF|(a & (m & q & T & _ & M2 & _ & _ & M5 & M6 & _) & HA)]; [left; exact HF|right].
  exists a, q. split; [|auto]. intros e He. destruct (HA e He) as (z & Hz & E1 & _). rewrite Hz, E1 by reflexivity. reflexivity.
Qed.
Lemma c112_partial : forall E G L EL S t blas blos bpts las los pts loc rho bg nE background pobs psigmas pbg mp b s o out y p1 pos g x,
  setting G L S t blas blos bpts las los pts loc rho bg -> elib_ok EL ->
  ensi_input (zlen blas) (zlen las) nE background pobs psigmas pbg -> ensi_data (zlen las) nE background pobs psigmas pbg b s o -> 0 <= mp ->
  ensi E G L EL S bpts background pts pobs psigmas pbg mp true = Ok out ->
  bpoint G t blas blos bpts y p1 pos -> known_cell pts bg p1 g -> row_data nE background y x ->
  exists ms U, members_of nE background ms /\ chosen G t las los pts pobs pobs loc bg mp p1 pos U /\
    (U = [] \/ zlen ms <= 1 -> unchanged background out y) /\
    (U <> [] -> 2 <= zlen ms ->
      (solver_failed EL ms (precision U ms b s g) /\ unchanged background out y) \/
      exists a T, (forall e, In e ms -> get2 out y e = Ok (RF (a e))) /\ transform U ms b s g T /\
        (forall T', transform U ms b s g T' -> forall e f, In e ms -> In f ms -> T' e f = T e f) /\
        forall e, In e ms -> (a e - ravg ms a = rtot ms (fun f => qr (dev ms x f) * T f e))%R).
Proof.
  intros E G L EL S t blas blos bpts las los pts loc rho bg nE background pobs psigmas pbg mp b s o out y p1 pos g x HS HE HI HD Hmp H Hp Hc Hx.
  destruct (c110_sec E G L EL S t blas blos las los bpts pts background pbg pobs psigmas mp true loc rho bg nE HS HE HI Hmp b s o HD out y p1 pos g x H Hp Hc Hx) as (ms & U & H1 & H2 & H3 & H4).
  exists ms, U. repeat (split; [assumption|]). intros N1 N2. destruct (H4 N1 N2) as [HF|(a & (m & q & T & _ & _ & M3 & M4 & _ & _ & M7) & HA)]; [left; exact HF|right].
  exists a, T. split; [|split; [exact M3|split]].
  - intros e He. destruct (HA e He) as (z & Hz & E1 & _). rewrite Hz, E1 by reflexivity. reflexivity.
  - intros T' HT' e f He Hf. apply (transform_unique U ms b s g T' T); try assumption. apply H1.
  - intros e He. rewrite M4, M7 by exact He. ring.
Qed.
Lemma c113_partial : forall E G L EL S t blas blos bpts las los pts loc rho bg nE background pobs psigmas pbg mp b s o out y p1 pos g x,
  setting G L S t blas blos bpts las los pts loc rho bg -> elib_ok EL ->
  ensi_input (zlen blas) (zlen las) nE background pobs psigmas pbg -> ensi_data (zlen las) nE background pobs psigmas pbg b s o -> 0 <= mp ->
  ensi E G L EL S bpts background pts pobs psigmas pbg mp false = Ok out ->
  bpoint G t blas blos bpts y p1 pos -> known_cell pts bg p1 g -> row_data nE background y x ->
  exists ms U, members_of nE background ms /\ chosen G t las los pts pobs pobs loc bg mp p1 pos U /\
    (U = [] \/ zlen ms <= 1 -> unchanged background out y) /\
    forall k, U = [k] -> 2 <= zlen ms ->
      (solver_failed EL ms (precision U ms b s g) /\ unchanged background out y) \/
      exists a, kalman_update U ms x b o s g a /\
        forall e, In e ms -> exists z, get2 out y e = Ok (RF z) /\ rlimited (qr (o k - b k e)%Qc) (a e - qr (x e)) (z - qr (x e)).
Proof.
  intros E G L EL S t blas blos bpts las los pts loc rho bg nE background pobs psigmas pbg mp b s o out y p1 pos g x HS HE HI HD Hmp H Hp Hc Hx.
  destruct (c110_sec E G L EL S t blas blos las los bpts pts background pbg pobs psigmas mp false loc rho bg nE HS HE HI Hmp b s o HD out y p1 pos g x H Hp Hc Hx) as (ms & U & H1 & H2 & H3 & H4).
  exists ms, U. repeat (split; [assumption|]). intros k EU N2. destruct (H4 ltac:(rewrite EU; discriminate) N2) as [HF|(a & HK & HA)]; [left; exact HF|right].
  exists a. split; [exact HK|]. intros e He. destruct (HA e He) as (z & Hz & _ & E2). exists z. split; [exact Hz|]. apply E2; [reflexivity|exact EU].
Qed.
(** C114 *)
Lemma c114_all : forall E G L EL S t blas blos bpts las los pts loc rho bg nE background pobs psigmas pbg mp ex out,
  setting G L S t blas blos bpts las los pts loc rho bg -> elib_ok EL ->
  ensi_input (zlen blas) (zlen las) nE background pobs psigmas pbg -> 0 <= mp ->
  ensi E G L EL S bpts background pts pobs psigmas pbg mp ex = Ok out ->
  rect (zlen blas) nE out /\
  (forall y e v, ~ complete e background -> get2 background y e = Ok v -> get2 out y e = Ok (v2r v)) /\
  (forall y p1 pos, bpoint G t blas blos bpts y p1 pos ->
     exists U, chosen G t las los pts pobs pobs loc bg mp p1 pos U /\ (U = [] -> unchanged background out y)).
Proof.
  intros E G L EL S t blas blos bpts las los pts loc rho bg nE background pobs psigmas pbg mp ex out HS HE HI Hmp H.
  exact (c114_sec E G L EL S t blas blos las los bpts pts background pbg pobs psigmas mp ex loc rho bg nE HS HE HI Hmp out H).
Qed.
(** C115 *)
Lemma c115_all : forall E G L EL S t blas blos bpts las los pts loc rho bg nE background pobs psigmas pbg mp ex,
  setting G L S t blas blos bpts las los pts loc rho bg -> elib_ok EL ->
  ensi_input (zlen blas) (zlen las) nE background pobs psigmas pbg -> 0 <= mp -> (blas <> [] \/ las = []) ->
  ((exists out, ensi E G L EL S bpts background pts pobs psigmas pbg mp ex = Ok out) \/
   (ensi E G L EL S bpts background pts pobs psigmas pbg mp ex = Throw RuntimeError /\ exists M, l_inv L M = Throw RuntimeError)) /\
  (forall b s o, ensi_data (zlen las) nE background pobs psigmas pbg b s o ->
     (forall y p1 pos, bpoint G t blas blos bpts y p1 pos -> exists g, known_cell pts bg p1 g) ->
     exists out, ensi E G L EL S bpts background pts pobs psigmas pbg mp ex = Ok out).
Proof.
  intros E G L EL S t blas blos bpts las los pts loc rho bg nE background pobs psigmas pbg mp ex HS HE HI Hmp Hb. split.
  - exact (c115_sec E G L EL S t blas blos las los bpts pts background pbg pobs psigmas mp ex loc rho bg nE HS HE HI Hmp Hb).
  - intros b s o HD. exact (c115_data E G L EL S t blas blos las los bpts pts background pbg pobs psigmas mp ex loc rho bg nE HS HE HI Hmp b s o HD Hb).
Qed.
(** C116 *)
Lemma c116_all : forall E G L EL S bpts background pts pobs psigmas pbg mp ex,
  (mp < 0 \/ points_type bpts <> points_type pts \/ zlen background <> points_size bpts \/
   zlen pobs <> points_size pts \/ zlen psigmas <> points_size pts \/ zlen pbg <> points_size pts) ->
  ensi E G L EL S bpts background pts pobs psigmas pbg mp ex = Throw InvalidArgument.
Proof.
  intros. unfold ensi. destruct (mp <? 0) eqn:E1; [reflexivity|].
  destruct (negb (match points_type bpts, points_type pts with Geodetic, Geodetic => true | Cartesian, Cartesian => true | _, _ => false end)) eqn:E2; [reflexivity|].
  destruct (zlen background =? points_size bpts) eqn:E3; [cbn [negb]|reflexivity].
  destruct (zlen pobs =? points_size pts) eqn:E5; [cbn [negb]|reflexivity].
  destruct (zlen psigmas =? points_size pts) eqn:E6; [cbn [negb]|reflexivity].
  destruct (zlen pbg =? points_size pts) eqn:E7; [cbn [negb]|reflexivity].
  exfalso. destruct H as [H|[H|H]]; [lia| |lia]. apply H. destruct (points_type bpts), (points_type pts); try reflexivity; discriminate.
Qed.
(** C117 *)
Lemma mapM_rowr {A} (c : list A) : mapM (fun e => znth c e) (zrange 0 (zlen c)) = Ok c.
Proof.
  transitivity (mapM (fun i => a <- znth c i ;; Ok a) (zrange 0 (zlen c))); [apply mapM_ext; intros i _; destruct (znth c i); reflexivity|].
  rewrite (mapM_zrange_znth Ok). induction c as [|a c IH]; cbn; [reflexivity|]. rewrite IH. reflexivity.
Qed.
Lemma unflat3r_ok Y X E (l : list (list rv)) : 0 <= Y -> 0 <= X -> rect (Y * X) E l -> exists out, unflat3r Y X E l = Ok out /\ rect3 Y X E out /\
  forall y x e, 0 <= y < Y -> 0 <= x < X -> get3 out y x e = get2 l (y * X + x) e.
Proof.
  intros HY HX [L1 L2]. destruct (tab2_total Y X (fun y x => mapM (fun e => get2 l (y * X + x) e) (zrange 0 E)) (fun y x v => znth l (y * X + x) = Ok v) HY HX) as (out & Eo & R & HE).
  - intros y x Hy Hx. destruct (znth_some l (y * X + x)) as [v Hv]; [nia|]. exists v. split; [|exact Hv]. unfold get2. rewrite Hv. cbn [bind].
    rewrite <- (L2 v) by (eapply znth_In; eauto). apply mapM_rowr.
  - exists out. split; [exact Eo|]. split; [split; [exact R|]|].
    + intros r c Hr Hc. apply In_znth in Hr as [y Hy]. apply In_znth in Hc as [x Hx]. pose proof (znth_range _ _ _ Hy) as Ry. pose proof (znth_range _ _ _ Hx) as Rx.
      destruct R as [R1 R2]. rewrite (R2 r) in Rx by (eapply znth_In; eauto). destruct (HE y x) as (v & G1 & _ & G2); [lia|lia|].
      unfold get2 in G1. rewrite Hy in G1. cbn [bind] in G1. assert (v = c) as -> by congruence. apply L2. exact (znth_In _ _ _ G2).
    + intros y x e Hy Hx. destruct (HE y x Hy Hx) as (v & G1 & _ & G2). unfold get3, get2 at 2. rewrite G1, G2. reflexivity.
Qed.
Lemma c117_all : forall E G L EL S t Y X lats lons g las los pts loc rho bg background pobs psigmas pbg mp ex nE,
  gsetting G L S t Y X lats lons g las los pts loc rho bg -> elib_ok EL -> las <> [] -> 0 <= mp ->
  rect3 Y X nE background -> zlen pobs = zlen las -> zlen psigmas = zlen las -> rect (zlen las) nE pbg ->
  exists P, to_points g = Ok P /\ setting G L S t (concat lats) (concat lons) P las los pts loc rho bg /\
  (forall o1, ensi E G L EL S P (concat background) pts pobs psigmas pbg mp ex = Ok o1 ->
     exists out, ensi_grid E G L EL S g background pts pobs psigmas pbg mp ex = Ok out /\ rect3 Y X nE out /\
       forall y x e, 0 <= y < Y -> 0 <= x < X -> get3 out y x e = get2 o1 (y * X + x) e) /\
  (forall er, ensi E G L EL S P (concat background) pts pobs psigmas pbg mp ex = Throw er ->
     ensi_grid E G L EL S g background pts pobs psigmas pbg mp ex = Throw er).
Proof.
  intros E G L EL S t Y X lats lons g las los pts loc rho bg background pobs psigmas pbg mp ex nE HSet HEL NL Hmp RB LO LS RG.
  destruct (g_setting _ _ _ _ _ _ _ _ _ _ _ _ _ _ _ HSet) as (P & EP & ES & E2 & E3 & E4 & E5 & HY & HX & E6 & _).
  exists P. split; [exact EP|]. split; [exact ES|].
  assert (Hn : 0 < zlen las) by (destruct las as [|q l]; [congruence|]; rewrite zlen_cons; pose proof (zlen_nonneg l); lia).
  assert (EQ : ensi_grid E G L EL S g background pts pobs psigmas pbg mp ex =
    (o1 <- ensi E G L EL S P (concat background) pts pobs psigmas pbg mp ex ;; unflat3r Y X nE o1)).
  { unfold ensi_grid. replace (mp <? 0) with false by lia. rewrite E4. replace (zlen las =? 0) with false by lia. rewrite E5. cbn [bind].
    replace ((Y =? 0) || (X =? 0))%bool with false by lia. rewrite E2, E3. replace (negb _) with false by (destruct t; reflexivity).
    destruct RB as [[RB1 RB2] RB3]. destruct (znth_some background 0 ltac:(lia)) as [r0 Hr0]. rewrite Hr0. cbn [bind].
    pose proof (RB2 _ (znth_In _ _ _ Hr0)) as Lr. destruct (znth_some r0 0 ltac:(lia)) as [e0 He0]. 
    pose proof (RB3 _ _ (znth_In _ _ _ Hr0) (znth_In _ _ _ He0)) as Le. rewrite RB1, Lr, !Z.eqb_refl. cbn [negb andb]. rewrite He0. cbn [bind].
    rewrite LO, LS, Z.eqb_refl. cbn [negb]. destruct RG as [RG1 RG2]. destruct (znth_some pbg 0 ltac:(lia)) as [p0 Hp0]. rewrite Hp0. cbn [bind].
    rewrite Le, (RG2 _ (znth_In _ _ _ Hp0)), Z.eqb_refl. cbn [negb]. rewrite EP. cbn [bind].
    rewrite flat3_ok; [reflexivity|lia|lia|]. split; [split|]; assumption. }
  assert (Lc : zlen (concat lats) = Y * X).
  { destruct HSet as [_ _ _ HG _]. destruct HG as (_ & _ & RL & _). apply zlen_concat. exact RL. }
  split.
  - intros o1 H. rewrite EQ, H. cbn [bind]. apply unflat3r_ok; [lia|lia|]. rewrite <- Lc.
    eapply (c114_all E G L EL S t (concat lats) (concat lons) P las los pts loc rho bg nE); [exact ES|exact HEL| |exact Hmp|exact H].
    constructor; try assumption. rewrite Lc. apply rect3_concat. exact RB.
  - intros er H. rewrite EQ, H. reflexivity.
Qed.
(** C118 *)
Lemma qr_div a c : qr (a / c)%Qc = (qr a / qr c)%R.
Proof.
  unfold Rdiv, Qcdiv. rewrite qr_mul. f_equal. destruct (Qc_eq_dec c 0%Qc) as [-> |N].
  - rewrite qr_0, Rinv_0. exact qr_0.
  - apply (Rmult_eq_reg_l (qr c)); [|rewrite <- qr_0; intros C; apply N; apply qr_inj; exact C].
    rewrite <- qr_mul, Qcmult_inv_r by exact N. rewrite Rinv_r; [exact qr_1|]. rewrite <- qr_0. intros C; apply N; apply qr_inj; exact C.
Qed.
Lemma ravg_qr ms x : ravg ms (fun e => qr (x e)) = qr (avg ms x).
Proof. unfold ravg, avg. rewrite <- qr_tot, qr_div, qr_z. reflexivity. Qed.
Lemma rvar_qr ms x : rvar ms (fun e => qr (x e)) = qr (cov ms x x).
Proof.
  unfold rvar, cov. rewrite ravg_qr. rewrite (rtot_ext ms _ (fun e => qr (dev ms x e * dev ms x e))).
  - rewrite <- qr_tot, qr_div, qr_z. reflexivity.
  - intros e _. unfold dev. rewrite qr_mul, qr_sub. reflexivity.
Qed.
Lemma tot0 U : tot U (fun _ => 0%Qc) = 0%Qc.
Proof. rewrite tot_const. ring. Qed.
Lemma mean_kept U ms x b o s g m : kalman_mean U ms x b o s g m -> (forall k, In k U -> o k = avg ms (b k)) -> m = avg ms x.
Proof.
  intros (v & [Hv Hu] & ->) H0.
  assert (K : forall k, In k U -> v k = 0%Qc).
  { intros k Hk. rewrite <- (Hu (fun _ => 0%Qc)); [reflexivity| |exact Hk]. intros j Hj. rewrite (H0 j Hj).
    rewrite (tot_ext U _ (fun _ => 0%Qc)) by (intros; ring). rewrite tot0. ring. }
  rewrite (tot_ext U _ (fun _ => 0%Qc)); [rewrite tot0; ring|]. intros k Hk. rewrite K by exact Hk. ring.
Qed.
Lemma c118_partial : forall E G L EL S t blas blos bpts las los pts loc rho bg nE background pobs psigmas pbg mp b s o out y p1 pos g x,
  setting G L S t blas blos bpts las los pts loc rho bg -> elib_ok EL ->
  ensi_input (zlen blas) (zlen las) nE background pobs psigmas pbg -> ensi_data (zlen las) nE background pobs psigmas pbg b s o -> 0 <= mp ->
  ensi E G L EL S bpts background pts pobs psigmas pbg mp true = Ok out ->
  bpoint G t blas blos bpts y p1 pos -> known_cell pts bg p1 g -> row_data nE background y x ->
  exists ms a, members_of nE background ms /\ (forall e, In e ms -> get2 out y e = Ok (RF (a e))) /\
    (rvar ms a <= rvar ms (fun e => qr (x e)))%R /\
    ((forall k v, znth pobs k = Ok (Fin v) -> v = avg ms (b k)) -> ravg ms a = ravg ms (fun e => qr (x e))).
Proof.
  intros E G L EL S t blas blos bpts las los pts loc rho bg nE background pobs psigmas pbg mp b s o out y p1 pos g x HS HE HI HD Hmp H Hp Hc Hx.
  destruct (c110_sec E G L EL S t blas blos las los bpts pts background pbg pobs psigmas mp true loc rho bg nE HS HE HI Hmp b s o HD out y p1 pos g x H Hp Hc Hx) as (ms & U & H1 & H2 & H3 & H4).
  assert (UN : unchanged background out y -> exists a, (forall e, In e ms -> get2 out y e = Ok (RF (a e))) /\ (rvar ms a <= rvar ms (fun e => qr (x e)))%R /\
    ((forall k v, znth pobs k = Ok (Fin v) -> v = avg ms (b k)) -> ravg ms a = ravg ms (fun e => qr (x e)))).
  { intros (row & R1 & R2). exists (fun e => qr (x e)). split; [|split; [lra|reflexivity]]. intros e He. apply H1 in He as [He Ce].
    pose proof (Hx e He Ce) as X. unfold get2 in *. rewrite R1 in X. cbn [bind] in X. rewrite R2. cbn [bind]. rewrite znth_map, X. reflexivity. }
  exists ms. destruct U as [|k0 U'] eqn:EU.
  { destruct (UN (H3 (or_introl eq_refl))) as (a & Ha). exists a. auto. }
  destruct (Z_le_gt_dec (zlen ms) 1) as [Le|Gt].
  { destruct (UN (H3 (or_intror Le))) as (a & Ha). exists a. auto. }
  rewrite <- EU in *. destruct (H4 ltac:(rewrite EU; discriminate) ltac:(lia)) as [[_ HF]|(a & (m & q & T & M1 & _ & _ & M4 & M5 & M6 & _) & HA)].
  { destruct (UN HF) as (a & Ha). exists a. auto. }
  exists a. split; [exact H1|]. split; [|split].
  - intros e He. destruct (HA e He) as (z & Hz & E1 & _). rewrite Hz, E1 by reflexivity. reflexivity.
  - rewrite M5, rvar_qr. apply qr_le. apply M6.
  - intros Z0. rewrite M4, ravg_qr. f_equal. apply (mean_kept _ _ _ _ _ _ _ _ M1). intros k Hk.
    destruct H2 as (_ & HU & _). destruct (HU k Hk) as (? & ? & v & ? & _ & _ & _ & Ov & _). rewrite (ed_obs _ _ _ _ _ _ _ _ _ HD k v Ov). apply Z0. exact Ov.
Qed.
(** data of the examples: the background point and the stations are at the origin *)
Lemma zero_cell pts p1 : (forall x, In x (s_lons pts) -> x = fz 0) -> p_lon p1 = fz 0 -> known_cell pts kern p1 (fun _ => 1%Qc).
Proof.
  intros H E k pk Hk. unfold points_get in Hk. apply bind_Ok in Hk as (la & _ & Hk). apply bind_Ok in Hk as (lo & Hlo & Hk).
  repeat (apply bind_Ok in Hk as (? & _ & Hk)). injection Hk as <-. unfold kern. cbn [p_lon]. rewrite E.
  assert (lo = fz 0) as ->. { apply H. eapply znth_In; eauto. }
  vcalc.
Qed.
Lemma zero_chosen pobs o p1 : p_lon p1 = fz 0 -> pobs = [Fin o] -> chosen G0 Cartesian (zeros [0]) (map qz [0]) (xpts [0]) pobs pobs (fun _ => Fin (qz 10)) kern 0 p1 (position G0 Cartesian (qz 0) (qz 0)) [0].
Proof.
  intros E ->. split; [repeat constructor; cbn; tauto|]. split; [|split; [lia|split]].
  - intros k [<- |[]]. exists (position G0 Cartesian (qz 0) (qz 0)). eexists. exists o, o. split; [exists (qz 0), (qz 0); repeat split|].
    split; [split; [repeat split; vm_compute; discriminate|vm_compute; discriminate]|]. split; [cbn; reflexivity|]. split; [reflexivity|]. split; [reflexivity|].
    unfold kern. rewrite E. vm_compute. reflexivity.
  - intros _ k (q & pk & oo & bb & Hq & _). apply point_at_range in Hq. unfold zlen in Hq; cbn in Hq. left. lia.
  - intros k k' [<- |[]] (q & pk & oo & bb & Hq & _) N. exfalso. apply N. apply point_at_range in Hq. unfold zlen in Hq; cbn in Hq. left. lia.
Qed.
(** C110 and C118 are false when a member that does not take part has a background value at a station: the perturbations at the stations are taken about a mean that includes it *)
Lemma c110_refuted : exists E G L EL S t blas blos bpts las los pts loc rho bg nE background pobs psigmas pbg b s o out p1 pos g x ms a,
  setting G L S t blas blos bpts las los pts loc rho bg /\ elib_ok EL /\
  ensi_input (zlen blas) (zlen las) nE background pobs psigmas pbg /\
  (forall k e, 0 <= k < zlen las -> 0 <= e < nE -> get2 pbg k e = Ok (Fin (b k e))) /\
  (forall k, 0 <= k < zlen las -> znth psigmas k = Ok (Fin (s k)) /\ s k <> 0%Qc) /\
  (forall k, 0 <= k < zlen las -> znth pobs k = Ok (Fin (o k)) /\ o k = avg ms (b k)) /\
  bpoint G t blas blos bpts 0 p1 pos /\ known_cell pts bg p1 g /\ row_data nE background 0 x /\
  members_of nE background ms /\ chosen G t las los pts pobs pobs loc bg 0 p1 pos [0] /\
  ensi E G L EL S bpts background pts pobs psigmas pbg 0 true = Ok out /\
  (forall e, In e ms -> get2 out 0 e = Ok (RF (a e))) /\
  kalman_mean [0] ms x b o s g (avg ms x) /\ ravg ms a <> qr (avg ms x).
Proof.
  exists E0, G0, L0, EL0, (sf0 (qz 10)), Cartesian, (zeros [0]), (map qz [0]), (xpts [0]), (zeros [0]), (map qz [0]), (xpts [0]), (fun _ => Fin (qz 10)), kern, kern, 3,
    [[fz 1; fz (-1); NaN]], [fq (3 # 2)], [fq (1 # 4)], [[fz 3; fz 0; fz 0]], (fun _ => f2 (qz 3) (qz 0)), (fun _ => Q2Qc (1 # 4)), (fun _ => Q2Qc (3 # 2)).
  do 3 eexists. exists (fun _ => 1%Qc), (f2 (qz 1) (qz (-1))), [0; 1], (fun e => qr (f2 (Q2Qc (31 # 135)) (Q2Qc (- 23 # 135)) e)).
  split; [apply setting0; pts_now|]. split; [apply elib_ok_EL0|]. split; [constructor; (reflexivity || rect_now)|].
  split. { intros k e Hk He. unfold zlen in Hk; cbn in Hk. assert (k = 0) as -> by lia. assert (e = 0 \/ e = 1 \/ e = 2) as [-> |[-> | ->]] by lia; reflexivity. }
  split. { intros k Hk. unfold zlen in Hk; cbn in Hk. assert (k = 0) as -> by lia. split; [reflexivity|]. intros C; vm_compute in C; discriminate. }
  split. { intros k Hk. unfold zlen in Hk; cbn in Hk. assert (k = 0) as -> by lia. split; vcalc. }
  split. { split; [cbn; reflexivity|]. exists (qz 0), (qz 0). repeat split. }
  split. { apply zero_cell; [|reflexivity]. intros z [<- |[]]. reflexivity. }
  split. { intros e He Ce. assert (e = 0 \/ e = 1 \/ e = 2) as [-> |[-> | ->]] by lia; [reflexivity|reflexivity|]. destruct (Ce NaN) as [q Hq]; [cbn; auto|discriminate]. }
  split. { split; [repeat constructor; cbn; intuition lia|]. intros e. split.
    - intros He. cbn in He. assert (e = 0 \/ e = 1) as [-> | ->] by lia; (split; [lia|]); intros v [<- |[]]; eexists; reflexivity.
    - intros [He Ce]. assert (e = 0 \/ e = 1 \/ e = 2) as [-> |[-> | ->]] by lia; [cbn; auto|cbn; auto|]. destruct (Ce NaN) as [q Hq]; [cbn; auto|discriminate]. }
  split. { apply (zero_chosen _ (Q2Qc (3 # 2))); reflexivity. }
  split; [exact wit110|]. split. { intros e He. cbn in He. assert (e = 0 \/ e = 1) as [-> | ->] by lia; reflexivity. }
  split.
  - exists (fun _ => 0%Qc). split; [split|].
    + intros j [<- |[]]. vcalc.
    + intros v' Hv k [<- |[]]. pose proof (Hv 0 ltac:(cbn; auto)) as X. unfold tot at 1 in X. cbn [map fold_right] in X. rewrite Qcplus_0_r in X.
      match type of X with (_ * ?c)%Qc = ?d => assert (c = Q2Qc (73 # 16)) as Ec by vcalc; assert (d = 0%Qc) as Ed by vcalc; rewrite Ec, Ed in X end.
      destruct (Qcmult_integral _ _ X) as [H|H]; [exact H|]. vm_compute in H. discriminate.
    + vcalc.
  - rewrite ravg_qr. intros C. apply qr_inj in C. vm_compute in C. discriminate.
Qed.
(** C113: two stations; the departures of the first member are both 1, its increment is 4/3 *)
Lemma c113_refuted : exists E G L EL S t blas blos bpts las los pts loc rho bg nE background pobs psigmas pbg b s o out p1 pos g x z,
  setting G L S t blas blos bpts las los pts loc rho bg /\ elib_ok EL /\
  ensi_input (zlen blas) (zlen las) nE background pobs psigmas pbg /\ ensi_data (zlen las) nE background pobs psigmas pbg b s o /\
  (forall e, 0 <= e < nE -> complete e background) /\
  bpoint G t blas blos bpts 0 p1 pos /\ known_cell pts bg p1 g /\ row_data nE background 0 x /\
  ensi E G L EL S bpts background pts pobs psigmas pbg 0 false = Ok out /\
  (forall k, 0 <= k < zlen las -> znth pobs k = Ok (Fin (o k)) /\ (o k - b k 0%Z)%Qc = 1%Qc) /\
  get2 out 0 0 = Ok (RF z) /\ (z - qr (x 0%Z) > 1)%R.
Proof.
  exists E0, G0, L0, EL0, (sf0 (qz 10)), Cartesian, (zeros [0]), (map qz [0]), (xpts [0]), (zeros [0; 0]), (map qz [0; 0]), (xpts [0; 0]), (fun _ => Fin (qz 10)), kern, kern, 2,
    [[fz 2; fz (-2)]], [fz 1; fz 3], [fz 1; fz 1], [[fz 0; fz 0]; [fz 2; fz (-2)]], (fun k => f2 (if k =? 0 then qz 0 else qz 2) (if k =? 0 then qz 0 else qz (-2))), (fun _ => qz 1), (f2 (qz 1) (qz 3)).
  do 3 eexists. exists (fun _ => 1%Qc), (f2 (qz 2) (qz (-2))). eexists.
  assert (CC : forall e, 0 <= e < 2 -> complete e [[fz 2; fz (-2)]]).
  { intros e He. assert (e = 0 \/ e = 1) as [-> | ->] by lia; intros v [<- |[]]; eexists; reflexivity. }
  split; [apply setting0; pts_now|]. split; [apply elib_ok_EL0|]. split; [constructor; (reflexivity || rect_now)|]. split.
  { constructor.
    - intros k e Hk He _. unfold zlen in Hk; cbn in Hk. assert (k = 0 \/ k = 1) as [-> | ->] by lia; assert (e = 0 \/ e = 1) as [-> | ->] by lia; reflexivity.
    - intros k e Hk He Ne. exfalso. apply Ne. apply CC. exact He.
    - intros k Hk. unfold zlen in Hk; cbn in Hk. assert (k = 0 \/ k = 1) as [-> | ->] by lia; (split; [reflexivity|]); intros C; vm_compute in C; discriminate.
    - intros k v Hk. pose proof (znth_range _ _ _ Hk) as Rk. unfold zlen in Rk; cbn in Rk. assert (k = 0 \/ k = 1) as [-> | ->] by lia; injection Hk as <-; reflexivity. }
  split; [exact CC|].
  split. { split; [cbn; reflexivity|]. exists (qz 0), (qz 0). repeat split. }
  split. { apply zero_cell; [|reflexivity]. intros z [<- |[<- |[]]]; reflexivity. }
  split. { intros e He _. assert (e = 0 \/ e = 1) as [-> | ->] by lia; reflexivity. }
  split; [exact wit113|].
  split. { intros k Hk. unfold zlen in Hk; cbn in Hk. assert (k = 0 \/ k = 1) as [-> | ->] by lia; split; vcalc. }
  split; [reflexivity|]. change (f2 (qz 2) (qz (-2)) 0) with (qz 2). rewrite <- qr_sub. replace (Q2Qc (10 # 3) - qz 2)%Qc with (Q2Qc (4 # 3)) by vcalc. rewrite qr_q. unfold Q2R. cbn. lra.
Qed.
(** the hypotheses hold of the examples *)
Lemma ex110_in : let bg2 := [[fz 2; fz (-2); NaN]; [fz 5; fz 6; fz 7]] in
  setting G0 L0 (sf0 (qz 10)) Cartesian (zeros [0; 50]) (map qz [0; 50]) (xpts [0; 50]) (zeros [0]) (map qz [0]) (xpts [0]) (fun _ => Fin (qz 10)) kern kern /\ elib_ok EL0 /\
  ensi_input 2 1 3 bg2 [fz 1] [fz 1] [[fz 2; fz (-2); NaN]] /\ ensi_data 1 3 bg2 [fz 1] [fz 1] [[fz 2; fz (-2); NaN]] (fun _ => f2 (qz 2) (qz (-2))) (fun _ => qz 1) (fun _ => qz 1) /\
  (exists p1 pos, bpoint G0 Cartesian (zeros [0; 50]) (map qz [0; 50]) (xpts [0; 50]) 0 p1 pos /\ known_cell (xpts [0]) kern p1 (fun _ => 1%Qc) /\
     chosen G0 Cartesian (zeros [0]) (map qz [0]) (xpts [0]) [fz 1] [fz 1] (fun _ => Fin (qz 10)) kern 0 p1 pos [0]) /\
  row_data 3 bg2 0 (f2 (qz 2) (qz (-2))) /\ members_of 3 bg2 [0; 1].
Proof.
  intros bg2.
  assert (C2 : ~ complete 2 bg2). { intros Ce. destruct (Ce NaN) as [q Hq]; [cbn; auto|discriminate]. }
  assert (C01 : forall e, e = 0 \/ e = 1 -> complete e bg2). { intros e [-> | ->] v [<- |[<- |[]]]; eexists; reflexivity. }
  split; [apply setting0; pts_now|]. split; [apply elib_ok_EL0|]. split; [constructor; (reflexivity || rect_now)|]. split.
  { constructor.
    - intros k e Hk He Ce. assert (k = 0) as -> by lia. assert (e = 0 \/ e = 1 \/ e = 2) as [-> |[-> | ->]] by lia; try reflexivity. contradiction.
    - intros k e Hk He Ne. assert (k = 0) as -> by lia. assert (e = 0 \/ e = 1 \/ e = 2) as [-> |[-> | ->]] by lia; [exfalso; auto|exfalso; auto|]. exists NaN. split; reflexivity.
    - intros k Hk. assert (k = 0) as -> by lia. split; [reflexivity|]. intros C; vm_compute in C; discriminate.
    - intros k v Hk. pose proof (znth_range _ _ _ Hk) as Rk. unfold zlen in Rk; cbn in Rk. assert (k = 0) as -> by lia. injection Hk as <-. reflexivity. }
  split. { do 2 eexists. split; [split; [cbn; reflexivity|exists (qz 0), (qz 0); repeat split]|]. split.
    - apply zero_cell; [|reflexivity]. intros z [<- |[]]; reflexivity.
    - apply (zero_chosen _ (qz 1)); reflexivity. }
  split.
  - intros e He Ce. assert (e = 0 \/ e = 1 \/ e = 2) as [-> |[-> | ->]] by lia; try reflexivity. contradiction.
  - split; [repeat constructor; cbn; intuition lia|]. intros e. split.
    + intros He. cbn in He. assert (e = 0 \/ e = 1) as K by lia. split; [lia|auto].
    + intros [He Ce]. assert (e = 0 \/ e = 1 \/ e = 2) as [-> |[-> | ->]] by lia; [cbn; auto|cbn; auto|contradiction].
Qed.
Lemma ex113_in :
  setting G0 L0 (sf0 (qz 10)) Cartesian (zeros [0]) (map qz [0]) (xpts [0]) (zeros [0]) (map qz [0]) (xpts [0]) (fun _ => Fin (qz 10)) kern kern /\ elib_ok EL0 /\
  ensi_input 1 1 2 [[fz 6; fz (-6)]] [fz 1] [fz 1] [[fz 2; fz (-2)]] /\
  ensi_data 1 2 [[fz 6; fz (-6)]] [fz 1] [fz 1] [[fz 2; fz (-2)]] (fun _ => f2 (qz 2) (qz (-2))) (fun _ => qz 1) (fun _ => qz 1) /\
  (exists p1 pos, bpoint G0 Cartesian (zeros [0]) (map qz [0]) (xpts [0]) 0 p1 pos /\ known_cell (xpts [0]) kern p1 (fun _ => 1%Qc) /\
     chosen G0 Cartesian (zeros [0]) (map qz [0]) (xpts [0]) [fz 1] [fz 1] (fun _ => Fin (qz 10)) kern 0 p1 pos [0]) /\
  row_data 2 [[fz 6; fz (-6)]] 0 (f2 (qz 6) (qz (-6))) /\ members_of 2 [[fz 6; fz (-6)]] [0; 1].
Proof.
  assert (C01 : forall e, e = 0 \/ e = 1 -> complete e [[fz 6; fz (-6)]]). { intros e [-> | ->] v [<- |[]]; eexists; reflexivity. }
  split; [apply setting0; pts_now|]. split; [apply elib_ok_EL0|]. split; [constructor; (reflexivity || rect_now)|]. split.
  { constructor.
    - intros k e Hk He Ce. assert (k = 0) as -> by lia. assert (e = 0 \/ e = 1) as [-> | ->] by lia; reflexivity.
    - intros k e Hk He Ne. exfalso. apply Ne. apply C01. lia.
    - intros k Hk. assert (k = 0) as -> by lia. split; [reflexivity|]. intros C; vm_compute in C; discriminate.
    - intros k v Hk. pose proof (znth_range _ _ _ Hk) as Rk. unfold zlen in Rk; cbn in Rk. assert (k = 0) as -> by lia. injection Hk as <-. reflexivity. }
  split. { do 2 eexists. split; [split; [cbn; reflexivity|exists (qz 0), (qz 0); repeat split]|]. split.
    - apply zero_cell; [|reflexivity]. intros z [<- |[]]; reflexivity.
    - apply (zero_chosen _ (qz 1)); reflexivity. }
  split.
  - intros e He Ce. assert (e = 0 \/ e = 1) as [-> | ->] by lia; reflexivity.
  - split; [repeat constructor; cbn; intuition lia|]. intros e. split.
    + intros He. cbn in He. assert (e = 0 \/ e = 1) as K by lia. split; [lia|auto].
    + intros [He Ce]. assert (e = 0 \/ e = 1) as [-> | ->] by lia; cbn; auto.
Qed.
Lemma ex111 : kalman_var [0] [0; 1] (f2 (qz 2) (qz (-2))) (fun _ => f2 (qz 2) (qz (-2))) (fun _ => qz 1) (fun _ => 1%Qc) (Q2Qc (8 # 9)).
Proof.
  exists (fun _ => Q2Qc (8 # 9)). split; [split|].
  - intros j [<- |[]]. vcalc.
  - intros v' Hv k [<- |[]]. pose proof (Hv 0 ltac:(cbn; auto)) as X. unfold tot at 1 in X. cbn [map fold_right] in X. rewrite Qcplus_0_r in X.
    match type of X with (_ * ?c)%Qc = ?d => assert (c = qz 9) as Ec by vcalc; assert (d = qz 8) as Ed by vcalc; rewrite Ec, Ed in X end.
    assert (qz 9 <> 0%Qc) as N by (vm_compute; discriminate). replace (v' 0) with (v' 0%Z * qz 9 / qz 9)%Qc by (field; exact N). rewrite X. vcalc.
  - vcalc.
Qed.
Lemma ex112 : transform [0] [0; 1] (fun _ => f2 (qz 2) (qz (-2))) (fun _ => qz 1) (fun _ => 1%Qc) (fun e f => qr (if e =? f then Q2Qc (2 # 3) else Q2Qc (1 # 3))).
Proof.
  split; [|split].
  - intros e f _ _. rewrite Z.eqb_sym. reflexivity.
  - intros c. unfold rtot. cbn. rewrite !qr_q. unfold Q2R. cbn. pose proof (Rle_0_sqr (c 0)) as A. pose proof (Rle_0_sqr (c 1)) as B. pose proof (Rle_0_sqr (c 0%Z + c 1%Z)%R) as C. unfold Rsqr in *. nra.
  - intros e f He Hf. cbn in He, Hf.
    rewrite (rtot_ext _ _ (fun i => qr (tot [0; 1] (fun j => (if (e =? i)%Z then Q2Qc (2 # 3) else Q2Qc (1 # 3)) * (if (i =? j)%Z then Q2Qc (2 # 3) else Q2Qc (1 # 3)) * precision [0%Z] [0%Z; 1%Z] (fun _ => f2 (qz 2) (qz (-2))) (fun _ => qz 1) (fun _ => 1%Qc) j f)%Qc))).
    + rewrite <- qr_tot, <- qr_unit. f_equal. assert (e = 0 \/ e = 1) as [-> | ->] by lia; assert (f = 0 \/ f = 1) as [-> | ->] by lia; vcalc.
    + intros i _. rewrite qr_tot. apply rtot_ext. intros j _. rewrite !qr_mul. reflexivity.
Qed.
