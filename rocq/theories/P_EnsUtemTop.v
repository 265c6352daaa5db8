(** The ensemble transform with ensemble correlations: statements for the properties, counterexamples and examples. *)
From Coq Require Import Lra.
From Verif Require Import Base QcTac ListLib RBase P_RBase M_Geo S_Geo S_Near M_Stat M_OI S_OI P_Geo P_OISum P_OISolve P_Grid P_OI P_OIAll P_OITotal P_OIGrid P_OIRef M_EnsMulti M_Ensi M_EnsDyn M_EnsUtem P_EnsSel P_EnsMulti P_EnsGrid S_EnsMulti S_Ensi S_EnsDyn S_EnsUtem P_RSum P_RAlg P_EnsiSpec P_EnsiFin P_EnsiWit P_Ensi P_EnsiAll P_EnsDyn P_EnsDynAll P_EnsDynRef P_EnsUtem P_EnsUtemSpec P_EnsUtemAll P_RInv P_XLib P_EnsUtemRef.
Local Open Scope Z_scope.

(** C124 *)
Lemma c124_all : forall E G L RL XL S t blas blos bpts las los pts loc rho bg nE bratios background background_corr pobs pratios pbg pbg_corr mp b bc x xc s o out y c p1 pos g,
  setting G L S t blas blos bpts las los pts loc rho bg -> rlib_ok RL -> xlib_ok XL ->
  utem_input (zlen blas) (zlen las) nE bratios background background_corr pobs pratios pbg pbg_corr ->
  utem_data (zlen blas) (zlen las) nE background background_corr pbg pbg_corr pobs pratios b bc x xc s o -> 0 <= mp ->
  utem E G L RL XL S bpts bratios background background_corr pts pobs pratios pbg pbg_corr mp true = Ok out ->
  znth bratios y = Ok (Fin c) -> bpoint G t blas blos bpts y p1 pos -> known_cell pts bg p1 g ->
  exists ms U, members_all_of nE [background; background_corr; pbg; pbg_corr] ms /\ chosen G t las los pts pobs pobs loc bg mp p1 pos U /\
    (U = [] \/ zlen ms <= 1 -> unchanged background out y) /\
    (U <> [] -> 2 <= zlen ms ->
      ((exists zs, (forall k, In k U -> standardized ms (bc k) (zs k)) /\ rsolver_failed XL ms (rprecision U ms zs s g)) /\ unchanged background out y) \/
      exists a, (forall e, In e ms -> get2 out y e = Ok (RF (a e))) /\ utem_analysis ms U (x y) (xc y) bc s g (fun k => o k - avg ms (b k))%Qc c a).
Proof.
  intros E G L RL XL S t blas blos bpts las los pts loc rho bg nE bratios background background_corr pobs pratios pbg pbg_corr mp b bc x xc s o out y c p1 pos g HS HR HX HI HD Hmp H Hc Hp KC.
  destruct (c124_at E G L RL XL S t blas blos las los bpts pts bratios background background_corr pbg pbg_corr pobs pratios mp true loc rho bg nE HS HR HX HI Hmp b bc x xc s o HD out y c p1 pos g H Hc Hp KC)
    as (U & HU & _ & _ & _ & U0 & U1).
  eexists. exists U. split; [apply (ums background background_corr pbg pbg_corr nE)|]. split; [exact HU|]. split; [exact U0|]. intros NU H2. destruct (U1 NU H2) as [F|(a & HA & Ha)]; [left; exact F|right].
  exists a. split; [|exact HA]. intros e He. destruct (Ha e He) as (z & Ez & Z0 & _). rewrite Ez, Z0; reflexivity.
Qed.
(** C125 *)
Lemma c125_partial : forall E G L RL XL S t blas blos bpts las los pts loc rho bg nE bratios background background_corr pobs pratios pbg pbg_corr mp b bc x xc s o out y c p1 pos g,
  setting G L S t blas blos bpts las los pts loc rho bg -> rlib_ok RL -> xlib_ok XL ->
  utem_input (zlen blas) (zlen las) nE bratios background background_corr pobs pratios pbg pbg_corr ->
  utem_data (zlen blas) (zlen las) nE background background_corr pbg pbg_corr pobs pratios b bc x xc s o -> 0 <= mp ->
  utem E G L RL XL S bpts bratios background background_corr pts pobs pratios pbg pbg_corr mp true = Ok out ->
  znth bratios y = Ok (Fin c) -> bpoint G t blas blos bpts y p1 pos -> known_cell pts bg p1 g ->
  exists ms U, members_all_of nE [background; background_corr; pbg; pbg_corr] ms /\ chosen G t las los pts pobs pobs loc bg mp p1 pos U /\
    ((forall k, In k U -> steady ms (bc k)) ->
       unchanged background out y \/
       (exists z, standardized ms (xc y) z /\ forall e, In e ms -> get2 out y e = Ok (RF (qr (avg ms (x y)) + sdev ms (x y) * z e)%R)) /\
       ((forall e, In e ms -> xc y e = x y e) -> ~ steady ms (x y) -> unchanged background out y)).
Proof.
  intros E G L RL XL S t blas blos bpts las los pts loc rho bg nE bratios background background_corr pobs pratios pbg pbg_corr mp b bc x xc s o out y c p1 pos g HS HR HX HI HD Hmp H Hc Hp KC.
  set (ms := filter (fun e => forallb (fun f => ok_in f e) [background; background_corr; pbg; pbg_corr]) (zrange 0 nE)).
  pose proof (ums background background_corr pbg pbg_corr nE) as MS. fold ms in MS.
  destruct (c124_at E G L RL XL S t blas blos las los bpts pts bratios background background_corr pbg pbg_corr pobs pratios mp true loc rho bg nE HS HR HX HI Hmp b bc x xc s o HD out y c p1 pos g H Hc Hp KC)
    as (U & HU & _ & _ & _ & U0 & U1). fold ms in U0, U1.
  exists ms, U. split; [exact MS|]. split; [exact HU|]. intros St.
  destruct (nil_dec U) as [EU|NU]; [left; apply U0; auto|]. destruct (Z_le_dec (zlen ms) 1) as [L1|L1]; [left; apply U0; auto|].
  destruct (U1 NU ltac:(lia)) as [[_ F]|(a & HA & Ha)]; [left; exact F|right].
  destruct (steady_stations ms U _ _ _ _ _ _ _ a (proj1 MS) St HA) as (zx & Hz & Ea).
  assert (EO : forall e, In e ms -> get2 out y e = Ok (RF (qr (avg ms (x y)) + sdev ms (x y) * zx e)%R)).
  { intros e He. destruct (Ha e He) as (z & Ez & Z0 & _). rewrite Ez, (Z0 eq_refl), Ea by exact He. reflexivity. }
  split; [exists zx; split; assumption|]. intros EX NS.
  destruct (c128_sec E G L RL XL S t blas blos las los bpts pts bratios background background_corr pbg pbg_corr pobs pratios mp true loc rho bg nE HS HR HX HI Hmp out H) as (RO & K1 & _).
  destruct (urow_of G t blas blos las bpts bratios background background_corr pbg pbg_corr pobs pratios nE HI y p1 pos Hp) as (row & Hr & Lr & Ry).
  destruct (znth_some out y) as [r Er]; [destruct RO; lia|]. exists row. split; [exact Hr|]. rewrite Er. f_equal.
  assert (Lrr : zlen r = nE) by (apply RO; eapply znth_In; eauto). apply znth_ext; [rewrite zlen_map; lia|]. intros e He. rewrite Lrr in He.
  destruct (in_dec Z.eq_dec e ms) as [I|NI].
  - specialize (EO e I). unfold get2 in EO. rewrite Er in EO. cbn [bind] in EO. rewrite EO.
    pose proof (ud_x _ _ _ _ _ _ _ _ _ _ _ _ _ _ _ HD y e Ry (proj1 (proj2 MS e) I)) as Hx. unfold get2 in Hx. rewrite Hr in Hx. cbn [bind] in Hx. rewrite znth_map, Hx. cbn [bind v2r]. do 2 f_equal.
    assert (Es : forall f h : Z -> Qc, (forall e, In e ms -> f e = h e) -> sdev ms f = sdev ms h /\ forall e, In e ms -> dev ms f e = dev ms h e).
    { intros f h Efh. assert (Ed : forall e, In e ms -> dev ms f e = dev ms h e) by (intros e' He'; unfold dev, avg; rewrite (Efh e' He'), (tot_ext ms f h Efh); reflexivity).
      split; [|exact Ed]. unfold sdev. rewrite (tot_ext ms _ (fun e => dev ms h e * dev ms h e)%Qc); [reflexivity|]. intros e' He'. rewrite Ed by exact He'. reflexivity. }
    destruct (Es _ _ EX) as [Sx Dx]. destruct (Hz e I) as [_ Z1]. rewrite Sx in Z1. rewrite Rmult_comm, Z1 by (unfold steady in *; rewrite Sx; exact NS). rewrite Dx by exact I. unfold dev. rewrite qr_sub. ring.
  - destruct (znth_some row e) as [v Hv]; [lia|]. rewrite znth_map, Hv. cbn [bind].
    assert (Gv : get2 background y e = Ok v) by (unfold get2; rewrite Hr; exact Hv). specialize (K1 y e v ltac:(intros C; apply NI; apply MS; exact C) Gv). unfold get2 in K1. rewrite Er in K1. exact K1.
Qed.
(** C126 *)
Lemma c126_partial : forall E G L RL XL S t blas blos bpts las los pts loc rho bg nE bratios background background_corr pobs pratios pbg pbg_corr mp b bc x xc s o out y c p1 pos g,
  setting G L S t blas blos bpts las los pts loc rho bg -> rlib_ok RL -> xlib_ok XL ->
  utem_input (zlen blas) (zlen las) nE bratios background background_corr pobs pratios pbg pbg_corr ->
  utem_data (zlen blas) (zlen las) nE background background_corr pbg pbg_corr pobs pratios b bc x xc s o -> 0 <= mp ->
  utem E G L RL XL S bpts bratios background background_corr pts pobs pratios pbg pbg_corr mp true = Ok out ->
  znth bratios y = Ok (Fin c) -> bpoint G t blas blos bpts y p1 pos -> known_cell pts bg p1 g ->
  exists ms U, members_all_of nE [background; background_corr; pbg; pbg_corr] ms /\ chosen G t las los pts pobs pobs loc bg mp p1 pos U /\
    (steady ms (xc y) ->
       (U = [] \/ zlen ms <= 1 -> unchanged background out y) /\
       (U <> [] -> 2 <= zlen ms ->
         ((exists zs, (forall k, In k U -> standardized ms (bc k) (zs k)) /\ rsolver_failed XL ms (rprecision U ms zs s g)) /\ unchanged background out y) \/
         forall e, In e ms -> get2 out y e = Ok (RF (qr (avg ms (x y)))))).
Proof.
  intros E G L RL XL S t blas blos bpts las los pts loc rho bg nE bratios background background_corr pobs pratios pbg pbg_corr mp b bc x xc s o out y c p1 pos g HS HR HX HI HD Hmp H Hc Hp KC.
  destruct (c124_at E G L RL XL S t blas blos las los bpts pts bratios background background_corr pbg pbg_corr pobs pratios mp true loc rho bg nE HS HR HX HI Hmp b bc x xc s o HD out y c p1 pos g H Hc Hp KC)
    as (U & HU & _ & _ & _ & U0 & U1).
  eexists. exists U. split; [apply (ums background background_corr pbg pbg_corr nE)|]. split; [exact HU|]. intros St. split; [exact U0|]. intros NU H2.
  destruct (U1 NU H2) as [F|(a & HA & Ha)]; [left; exact F|right]. intros e He. destruct (Ha e He) as (z & Ez & Z0 & _). rewrite Ez, (Z0 eq_refl). do 2 f_equal. eapply steady_point; eauto.
Qed.
(** C127 *)
Lemma c127_partial : forall E G L RL XL S t blas blos bpts las los pts loc rho bg nE bratios background background_corr pobs pratios pbg pbg_corr mp b bc x xc s o out y c p1 pos g,
  setting G L S t blas blos bpts las los pts loc rho bg -> rlib_ok RL -> xlib_ok XL ->
  utem_input (zlen blas) (zlen las) nE bratios background background_corr pobs pratios pbg pbg_corr ->
  utem_data (zlen blas) (zlen las) nE background background_corr pbg pbg_corr pobs pratios b bc x xc s o -> 0 <= mp ->
  utem E G L RL XL S bpts bratios background background_corr pts pobs pratios pbg pbg_corr mp false = Ok out ->
  znth bratios y = Ok (Fin c) -> bpoint G t blas blos bpts y p1 pos -> known_cell pts bg p1 g ->
  exists ms U, members_all_of nE [background; background_corr; pbg; pbg_corr] ms /\ chosen G t las los pts pobs pobs loc bg mp p1 pos U /\
    (U = [] \/ zlen ms <= 1 -> unchanged background out y) /\
    forall k, U = [k] -> 2 <= zlen ms ->
      ((exists zs, (forall k, In k U -> standardized ms (bc k) (zs k)) /\ rsolver_failed XL ms (rprecision U ms zs s g)) /\ unchanged background out y) \/
      exists a, utem_analysis ms U (x y) (xc y) bc s g (fun k => o k - avg ms (b k))%Qc c a /\
        forall e, In e ms -> exists z, get2 out y e = Ok (RF z) /\ rlimited (qr (o k - b k e)%Qc) (a e - qr (x y e)) (z - qr (x y e)).
Proof.
  intros E G L RL XL S t blas blos bpts las los pts loc rho bg nE bratios background background_corr pobs pratios pbg pbg_corr mp b bc x xc s o out y c p1 pos g HS HR HX HI HD Hmp H Hc Hp KC.
  destruct (c124_at E G L RL XL S t blas blos las los bpts pts bratios background background_corr pbg pbg_corr pobs pratios mp false loc rho bg nE HS HR HX HI Hmp b bc x xc s o HD out y c p1 pos g H Hc Hp KC)
    as (U & HU & _ & _ & _ & U0 & U1).
  eexists. exists U. split; [apply (ums background background_corr pbg pbg_corr nE)|]. split; [exact HU|]. split; [exact U0|]. intros k EU H2.
  destruct (U1 ltac:(rewrite EU; discriminate) H2) as [F|(a & HA & Ha)]; [left; exact F|right]. exists a. split; [exact HA|]. intros e He. destruct (Ha e He) as (z & Ez & _ & Z0). exists z. split; [exact Ez|]. apply Z0; [reflexivity|exact EU].
Qed.
(** C128 *)
Lemma c128_all : forall E G L RL XL S t blas blos bpts las los pts loc rho bg nE bratios background background_corr pobs pratios pbg pbg_corr mp ex out,
  setting G L S t blas blos bpts las los pts loc rho bg -> rlib_ok RL -> xlib_ok XL ->
  utem_input (zlen blas) (zlen las) nE bratios background background_corr pobs pratios pbg pbg_corr -> 0 <= mp ->
  utem E G L RL XL S bpts bratios background background_corr pts pobs pratios pbg pbg_corr mp ex = Ok out ->
  rect (zlen blas) nE out /\
  (forall y e v, ~ common nE [background; background_corr; pbg; pbg_corr] e -> get2 background y e = Ok v -> get2 out y e = Ok (v2r v)) /\
  (forall y p1 pos, bpoint G t blas blos bpts y p1 pos -> exists U, chosen G t las los pts pobs pobs loc bg mp p1 pos U /\ (U = [] -> unchanged background out y)).
Proof.
  intros until out. intros HS HR HX HI Hmp. exact (c128_sec E G L RL XL S t blas blos las los bpts pts bratios background background_corr pbg pbg_corr pobs pratios mp ex loc rho bg nE HS HR HX HI Hmp out).
Qed.
(** C129 *)
Lemma c129_partial : forall E G L RL XL S t blas blos bpts las los pts loc rho bg nE bratios background background_corr pobs pratios pbg pbg_corr mp ex,
  setting G L S t blas blos bpts las los pts loc rho bg -> rlib_ok RL -> xlib_ok XL ->
  utem_input (zlen blas) (zlen las) nE bratios background background_corr pobs pratios pbg pbg_corr -> 0 <= mp -> (blas <> [] \/ las = []) -> zlen las <= zlen blas ->
  ((exists out, utem E G L RL XL S bpts bratios background background_corr pts pobs pratios pbg pbg_corr mp ex = Ok out) \/
   (utem E G L RL XL S bpts bratios background background_corr pts pobs pratios pbg pbg_corr mp ex = Throw RuntimeError /\ exists M, r_inv RL M = Throw RuntimeError)) /\
  (forall b bc x xc s o, utem_data (zlen blas) (zlen las) nE background background_corr pbg pbg_corr pobs pratios b bc x xc s o ->
     (forall y, 0 <= y < zlen blas -> exists c, znth bratios y = Ok (Fin c)) ->
     (forall y p1 pos, bpoint G t blas blos bpts y p1 pos -> exists g, known_cell pts bg p1 g) ->
     exists out, utem E G L RL XL S bpts bratios background background_corr pts pobs pratios pbg pbg_corr mp ex = Ok out).
Proof.
  intros until ex. intros HS HR HX HI Hmp D Hle. split.
  - exact (c129_sec E G L RL XL S t blas blos las los bpts pts bratios background background_corr pbg pbg_corr pobs pratios mp ex loc rho bg nE HS HR HX HI Hmp D Hle).
  - intros b bc x xc s o HD. exact (c129_data E G L RL XL S t blas blos las los bpts pts bratios background background_corr pbg pbg_corr pobs pratios mp ex loc rho bg nE HS HR HX HI Hmp b bc x xc s o HD D Hle).
Qed.
Lemma c129_more_stations : forall E G L RL XL S t blas blos bpts las los pts loc rho bg nE bratios background background_corr pobs pratios pbg pbg_corr mp ex,
  setting G L S t blas blos bpts las los pts loc rho bg ->
  utem_input (zlen blas) (zlen las) nE bratios background background_corr pobs pratios pbg pbg_corr -> 0 <= mp -> blas <> [] ->
  (exists e, common nE [background; background_corr; pbg; pbg_corr] e) -> zlen blas < zlen las ->
  utem E G L RL XL S bpts bratios background background_corr pts pobs pratios pbg pbg_corr mp ex = UB.
Proof.
  intros until ex. intros HS HI Hmp HB Hm HL. exact (c129_ub E G L RL XL S t blas blos las los bpts pts bratios background background_corr pbg pbg_corr pobs pratios mp ex loc rho bg nE HS HI Hmp HB Hm HL).
Qed.
(** C130 *)
Lemma c130_all : forall E G L RL XL S bpts bratios background background_corr pts pobs pratios pbg pbg_corr mp ex,
  (mp < 0 \/ points_type bpts <> points_type pts \/ zlen background <> points_size bpts \/ zlen background_corr <> points_size bpts \/ zlen bratios <> points_size bpts \/
   zlen pobs <> points_size pts \/ zlen pratios <> points_size pts \/ zlen pbg <> points_size pts \/ zlen pbg_corr <> points_size pts) ->
  utem E G L RL XL S bpts bratios background background_corr pts pobs pratios pbg pbg_corr mp ex = Throw InvalidArgument.
Proof.
  intros. unfold utem. destruct (mp <? 0) eqn:E1; [reflexivity|].
  destruct (negb (match points_type bpts, points_type pts with Geodetic, Geodetic => true | Cartesian, Cartesian => true | _, _ => false end)) eqn:E2; [reflexivity|].
  destruct (zlen background =? points_size bpts) eqn:E3; [cbn [negb]|reflexivity].
  destruct (zlen background_corr =? points_size bpts) eqn:E4; [cbn [negb]|reflexivity].
  destruct (zlen bratios =? points_size bpts) eqn:E5; [cbn [negb]|reflexivity].
  destruct (zlen pobs =? points_size pts) eqn:E6; [cbn [negb]|reflexivity].
  destruct (zlen pratios =? points_size pts) eqn:E7; [cbn [negb]|reflexivity].
  destruct (zlen pbg =? points_size pts) eqn:E8; [cbn [negb]|reflexivity].
  destruct (zlen pbg_corr =? points_size pts) eqn:E9; [cbn [negb]|reflexivity].
  exfalso. destruct H as [H|[H|H]]; [lia| |lia]. apply H. destruct (points_type bpts), (points_type pts); try reflexivity; discriminate.
Qed.
(** C131 *)
Lemma utem_rect E G L RL XL S bpts nB nE bratios background background_corr pts pobs pratios pbg pbg_corr mp ex out : rect nB nE background ->
  utem E G L RL XL S bpts bratios background background_corr pts pobs pratios pbg pbg_corr mp ex = Ok out -> rect nB nE out.
Proof.
  intros RB H. unfold utem in H.
  repeat match type of H with (if ?c then _ else _) = _ => destruct c; [try discriminate|] end; try (injection H as <-; apply rect_map_map; exact RB).
  apply bind_Ok in H as (r0 & _ & H). apply bind_Ok in H as (pv & _ & H). apply bind_Ok in H as (va & _ & H).
  destruct (zlen va =? 0); [injection H as <-; apply rect_map_map; exact RB|]. apply bind_Ok in H as (gZ & _ & H). apply mapM_inv in H as [Lo HC].
  rewrite zlen_zrange in Lo. pose proof (zlen_nonneg background). destruct RB as [R1 R2]. split; [lia|].
  intros r Hr. apply In_znth in Hr as [y Hy]. pose proof (znth_range _ _ _ Hy) as Ry. destruct (HC y y) as (r' & Hr' & Ec); [rewrite znth_zrange by lia; reflexivity|].
  assert (r' = r) as -> by congruence. unfold utem_cell in Ec. apply bind_Ok in Ec as (row & Hrow & Ec). rewrite <- (R2 row) by (eapply znth_In; eauto).
  do 5 (apply bind_Ok in Ec as (? & _ & Ec)). destruct (_ =? 0) in Ec; [injection Ec as <-; apply zlen_map|].
  do 5 (apply bind_Ok in Ec as (? & _ & Ec)). destruct (rleb _ _); [injection Ec as <-; apply zlen_map|]. do 2 (apply bind_Ok in Ec as (? & _ & Ec)).
  destruct (x_eig _ _) as [[lam V]|]; [|injection Ec as <-; apply zlen_map]. apply bind_Ok in Ec as (? & _ & Ec). unfold utem_update in Ec. do 7 (apply bind_Ok in Ec as (? & _ & Ec)).
  apply fold_len in Ec; [rewrite Ec; apply zlen_map|]. intros a i a' Ha. do 4 (apply bind_Ok in Ha as (? & _ & Ha)). apply zset_len in Ha. exact Ha.
Qed.
Lemma c131_all : forall E G L RL XL S t Y X lats lons g las los pts loc rho bg bratios background background_corr pobs pratios pbg pbg_corr mp ex nE,
  gsetting G L S t Y X lats lons g las los pts loc rho bg -> las <> [] -> 0 <= mp ->
  rect Y X bratios -> rect3 Y X nE background -> rect3 Y X nE background_corr -> zlen pobs = zlen las -> zlen pratios = zlen las ->
  rect (zlen las) nE pbg -> rect (zlen las) nE pbg_corr ->
  exists P, to_points g = Ok P /\ setting G L S t (concat lats) (concat lons) P las los pts loc rho bg /\
  (forall o1, utem E G L RL XL S P (concat bratios) (concat background) (concat background_corr) pts pobs pratios pbg pbg_corr mp ex = Ok o1 ->
     exists out, utem_grid E G L RL XL S g bratios background background_corr pts pobs pratios pbg pbg_corr mp ex = Ok out /\ rect3 Y X nE out /\
       forall y x e, 0 <= y < Y -> 0 <= x < X -> get3 out y x e = get2 o1 (y * X + x) e) /\
  (forall er, utem E G L RL XL S P (concat bratios) (concat background) (concat background_corr) pts pobs pratios pbg pbg_corr mp ex = Throw er ->
     utem_grid E G L RL XL S g bratios background background_corr pts pobs pratios pbg pbg_corr mp ex = Throw er).
Proof.
  intros E G L RL XL S t Y X lats lons g las los pts loc rho bg bratios background background_corr pobs pratios pbg pbg_corr mp ex nE HSet NL Hmp RR RB RC LO LR RG RGC.
  destruct (g_setting _ _ _ _ _ _ _ _ _ _ _ _ _ _ _ HSet) as (P & EP & ES & E2 & E3 & E4 & E5 & HY & HX & E6 & _).
  exists P. split; [exact EP|]. split; [exact ES|].
  assert (Hn : 0 < zlen las) by (apply len_ne in NL; pose proof (zlen_nonneg las); lia).
  assert (EQ : utem_grid E G L RL XL S g bratios background background_corr pts pobs pratios pbg pbg_corr mp ex =
    (o1 <- utem E G L RL XL S P (concat bratios) (concat background) (concat background_corr) pts pobs pratios pbg pbg_corr mp ex ;; unflat3r Y X nE o1)).
  { unfold utem_grid. replace (mp <? 0) with false by lia. rewrite E4. replace (zlen las =? 0) with false by lia. rewrite E5. cbn [bind].
    replace ((Y =? 0) || (X =? 0))%bool with false by lia. rewrite E2, E3. replace (negb _) with false by (destruct t; reflexivity).
    pose proof RB as [[RB1 RB2] RB3]. destruct (znth_some background 0 ltac:(lia)) as [r0 Hr0]. rewrite Hr0. cbn [bind].
    pose proof (RB2 _ (znth_In _ _ _ Hr0)) as Lr. destruct (znth_some r0 0 ltac:(lia)) as [e0 He0]. rewrite He0. cbn [bind].
    pose proof (RB3 _ _ (znth_In _ _ _ Hr0) (znth_In _ _ _ He0)) as Le. rewrite RB1, Lr, Le, !Z.eqb_refl. cbn [negb andb].
    rewrite sized3_ok by (assumption || lia). rewrite !sized_ok by (assumption || lia). cbn [bind]. rewrite LR, LO, Z.eqb_refl. cbn [negb]. rewrite EP. cbn [bind].
    rewrite flat_ok by (assumption || lia). cbn [bind]. rewrite !flat3_ok by (assumption || lia). reflexivity. }
  split.
  - intros o1 H. rewrite EQ, H. cbn [bind]. apply unflat3r_ok; [lia|lia|]. eapply utem_rect; [|exact H]. apply rect3_concat. exact RB.
  - intros er H. rewrite EQ, H. reflexivity.
Qed.

(** *** counterexamples and examples: two members *)
Notation z01 := (cons 0 (cons 1 nil)).
Lemma len2 {A} (l : list A) : zlen l = 2 -> exists a b, l = [a; b].
Proof.
  intros H. destruct l as [|a [|b [|c l]]]; rewrite ?zlen_cons, ?zlen_nil in H; try lia; [exists a, b; reflexivity|]. pose proof (zlen_nonneg l). lia.
Qed.
Lemma xl0_solves F : (forall e f, In e z01 -> In f z01 -> F e f = F f e) -> ~ rsolver_failed XL0 z01 F.
Proof.
  intros SF (M & B & RM & HM & HB & HN).
  assert (ND : NoDup z01) by (repeat constructor; cbn; intuition lia).
  assert (SB : forall e f, In e z01 -> In f z01 -> B f e = B e f).
  { intros e f He Hf. transitivity (rtot z01 (fun i => runit e i * B f i))%R; [symmetry; apply (rdelta_l z01 (fun i => B f i)); assumption|].
    transitivity (rtot z01 (fun i => rtot z01 (fun h => B e h * F h i * B f i)))%R.
    { apply rtot_ext. intros i Hi. rewrite <- HB by assumption. rewrite <- rtot_mul_r. apply rtot_ext. intros; ring. }
    rewrite rtot_swap. transitivity (rtot z01 (fun h => runit f h * B e h))%R; [|apply (rdelta_l z01 (fun h => B e h)); assumption].
    apply rtot_ext. intros h Hh. rewrite <- HB by assumption. rewrite <- rtot_mul_r. apply rtot_ext. intros i Hi. rewrite (SF h i) by assumption. ring. }
  destruct RM as [L1 L2]. change (zlen z01) with 2 in L1, L2.
  destruct (len2 M L1) as (r0 & r1 & ->). destruct (len2 r0 (L2 r0 ltac:(cbn; auto))) as (a & b & ->). destruct (len2 r1 (L2 r1 ltac:(cbn; auto))) as (c & d & ->).
  pose proof (HM 0 0 0 0 eq_refl eq_refl) as E00. pose proof (HM 0 1 0 1 eq_refl eq_refl) as E01. pose proof (HM 1 0 1 0 eq_refl eq_refl) as E10. pose proof (HM 1 1 1 1 eq_refl eq_refl) as E11.
  cbn in E00, E01, E10, E11. injection E00 as ->. injection E01 as ->. injection E10 as ->. injection E11 as ->.
  cbn in HN. rewrite (SB 0 1) in HN by (cbn; auto). destruct (Req_EM_T _ _) as [_|N]; [discriminate|]. apply N. reflexivity.
Qed.
Lemma prec_sym U ms zs s g e f : rprecision U ms zs s g e f = rprecision U ms zs s g f e.
Proof. unfold rprecision. rewrite runit_sym. f_equal. f_equal. apply rtot_ext. intros k _. ring. Qed.
Lemma steady_const : steady z01 (f2 (qz 0) (qz 0)).
Proof.
  unfold steady, sdev. replace (tot z01 (fun e => dev z01 (f2 (qz 0) (qz 0)) e * dev z01 (f2 (qz 0) (qz 0)) e) / qz (zlen z01))%Qc with 0%Qc by vcalc. rewrite qr_0, sqrt_0. lra.
Qed.
Section One.
Variables (x0 x1 xc0 xc1 b0 b1 bc0 bc1 o : Z).
Notation B := (cons (cons (fz x0) (cons (fz x1) nil)) nil).
Notation BC := (cons (cons (fz xc0) (cons (fz xc1) nil)) nil).
Notation PB := (cons (cons (fz b0) (cons (fz b1) nil)) nil).
Notation PBC := (cons (cons (fz bc0) (cons (fz bc1) nil)) nil).
Notation one := (utem E0 G0 L0 RL0 XL0 (sf0 (qz 10)) (xpts [0]) [fz 1] B BC (xpts [0]) [fz o] [fz 1] PB PBC 0).
Lemma one_in : utem_input 1 1 2 [fz 1] B BC [fz o] [fz 1] PB PBC.
Proof. constructor; try rect_now; reflexivity. Qed.
Lemma one_data : utem_data 1 1 2 B BC PB PBC [fz o] [fz 1] (fun _ => f2 (qz b0) (qz b1)) (fun _ => f2 (qz bc0) (qz bc1)) (fun _ => f2 (qz x0) (qz x1)) (fun _ => f2 (qz xc0) (qz xc1)) (fun _ => 1%Qc) (fun _ => qz o).
Proof.
  constructor.
  1-4: intros k e Hk [He _]; assert (k = 0) as -> by lia; assert (e = 0 \/ e = 1) as [-> | ->] by lia; reflexivity.
  - intros k Hk. assert (k = 0) as -> by lia. split; reflexivity.
  - intros k v Hk. pose proof (znth_range _ _ _ Hk) as R. unfold zlen in R; cbn in R. assert (k = 0) as -> by lia. cbn in Hk. injection Hk as <-. reflexivity.
Qed.
Lemma one_point : exists p1, bpoint G0 Cartesian (zeros [0]) (map qz [0]) (xpts [0]) 0 p1 (position G0 Cartesian (qz 0) (qz 0)) /\ p_lon p1 = fz 0 /\ known_cell (xpts [0]) kern p1 (fun _ => 1%Qc).
Proof.
  eexists. split; [split; [cbn; reflexivity|]; exists (qz 0), (qz 0); repeat split|]. split; [reflexivity|]. apply zero_cell; [intros z [<- |[]]; reflexivity|reflexivity].
Qed.
Lemma one_members : filter (fun e => forallb (fun f => ok_in f e) [B; BC; PB; PBC]) (zrange 0 2) = z01.
Proof. reflexivity. Qed.
Lemma one_common : members_all_of 2 [B; BC; PB; PBC] z01.
Proof. rewrite <- one_members. apply (ums B BC PB PBC 2). Qed.
Lemma one_run ex : exists out a, one ex = Ok out /\
  utem_analysis z01 [0] (f2 (qz x0) (qz x1)) (f2 (qz xc0) (qz xc1)) (fun _ => f2 (qz bc0) (qz bc1)) (fun _ => 1%Qc) (fun _ => 1%Qc) (fun _ => qz o - avg z01 (f2 (qz b0) (qz b1)))%Qc 1%Qc a /\
  forall e, In e z01 -> exists z, get2 out 0 e = Ok (RF z) /\ (ex = true -> z = a e) /\
    (ex = false -> rlimited (qr (qz o - f2 (qz b0) (qz b1) e)%Qc) (a e - qr (f2 (qz x0) (qz x1) e)) (z - qr (f2 (qz x0) (qz x1) e))).
Proof.
  destruct (c129_partial E0 G0 L0 RL0 XL0 (sf0 (qz 10)) Cartesian (zeros [0]) (map qz [0]) (xpts [0]) (zeros [0]) (map qz [0]) (xpts [0]) (fun _ => Fin (qz 10)) kern kern 2 [fz 1] B BC [fz o] [fz 1] PB PBC 0 ex)
    as [_ T]; [exact set02|exact rlib_ok_RL0|exact xlib_ok_XL0|exact one_in|lia|left; discriminate|reflexivity|].
  destruct (T _ _ _ _ _ _ one_data) as [out H].
  { intros y Hy. unfold zlen in Hy; cbn in Hy. assert (y = 0) as -> by lia. exists 1%Qc. reflexivity. }
  { intros y p1 pos Hp. exists (fun _ => 1%Qc). destruct (bpoint_at _ _ _ _ _ _ _ _ Hp) as (la & lo & Hla & _). apply znth_range in Hla. unfold zlen in Hla; cbn in Hla. destruct Hp as [Hp' _]. assert (y = 0) as -> by lia.
    apply zero_cell; [intros z [<- |[]]; reflexivity|]. cbn in Hp'. injection Hp' as <-. reflexivity. }
  destruct one_point as (p1 & Hp & L1 & KC).
  destruct (c124_at E0 G0 L0 RL0 XL0 (sf0 (qz 10)) Cartesian (zeros [0]) (map qz [0]) (zeros [0]) (map qz [0]) (xpts [0]) (xpts [0]) [fz 1] B BC PB PBC [fz o] [fz 1] 0 ex (fun _ => Fin (qz 10)) kern kern 2 set02 rlib_ok_RL0 xlib_ok_XL0 one_in ltac:(lia)
    _ _ _ _ _ _ one_data out 0 1%Qc p1 _ (fun _ => 1%Qc) H eq_refl Hp KC) as (U & HU & _ & _ & _ & _ & U1).
  rewrite one_members in U1. apply one_chosen in HU; [|exact L1|reflexivity|exists (qz o); reflexivity|reflexivity]. subst U.
  exists out. destruct (U1 ltac:(discriminate) ltac:(reflexivity || (unfold zlen; cbn; lia))) as [[(zs & _ & F) _]|(a & HA & Ha)].
  - exfalso. revert F. apply xl0_solves. intros. apply prec_sym.
  - exists a. split; [exact H|]. split; [exact HA|]. intros e He. destruct (Ha e He) as (z & Ez & Z1 & Z2). exists z. split; [exact Ez|]. split; [exact Z1|]. intros X. exact (Z2 X 0 eq_refl).
Qed.
End One.
(** C125: the station does not vary, the perturbations are exchanged *)
Lemma c125_refuted : exists E G L RL XL S t blas blos bpts las los pts loc rho bg nE bratios background background_corr pobs pratios pbg pbg_corr b bc x xc s o out,
  setting G L S t blas blos bpts las los pts loc rho bg /\ rlib_ok RL /\ xlib_ok XL /\
  utem_input (zlen blas) (zlen las) nE bratios background background_corr pobs pratios pbg pbg_corr /\
  utem_data (zlen blas) (zlen las) nE background background_corr pbg pbg_corr pobs pratios b bc x xc s o /\
  (forall k e, 0 <= k < zlen las -> 0 <= e < nE -> get2 pbg_corr k e = Ok (fz 0)) /\
  utem E G L RL XL S bpts bratios background background_corr pts pobs pratios pbg pbg_corr 0 true = Ok out /\
  get2 background 0 0 = Ok (fz 0) /\ get2 out 0 0 = Ok (RF 2).
Proof.
  destruct (one_run 0 2 2 0 0 0 0 0 1 true) as (out & a & H & HA & Ho).
  exists E0, G0, L0, RL0, XL0, (sf0 (qz 10)), Cartesian, (zeros [0]), (map qz [0]), (xpts [0]), (zeros [0]), (map qz [0]), (xpts [0]), (fun _ => Fin (qz 10)), kern, kern, 2,
    [fz 1], [[fz 0; fz 2]], [[fz 2; fz 0]], [fz 1], [fz 1], [[fz 0; fz 0]], [[fz 0; fz 0]]. do 6 eexists. exists out.
  split; [exact set02|]. split; [exact rlib_ok_RL0|]. split; [exact xlib_ok_XL0|]. split; [apply one_in|]. split; [apply one_data|].
  split; [intros k e Hk He; change (zlen (zeros [0])) with 1 in Hk; assert (k = 0) as -> by lia; assert (e = 0 \/ e = 1) as [-> | ->] by lia; reflexivity|].
  split; [exact H|]. split; [reflexivity|].
  destruct (Ho 0 ltac:(cbn; auto)) as (z & Ez & Z1 & _). rewrite Ez, (Z1 eq_refl). do 2 f_equal.
  destruct (steady_stations z01 [0] _ _ _ _ _ _ _ a ltac:(repeat constructor; cbn; intuition lia) ltac:(intros; apply steady_const) HA) as (zx & Hz & Ea). rewrite Ea by (cbn; auto).
  rewrite sdev02. assert (S20 : sdev z01 (f2 (qz 2) (qz 0)) = 1%R).
  { unfold sdev. replace (tot z01 (fun e => dev z01 (f2 (qz 2) (qz 0)) e * dev z01 (f2 (qz 2) (qz 0)) e) / qz (zlen z01))%Qc with 1%Qc by vcalc. rewrite qr_1. apply sqrt_1. }
  destruct (Hz 0 ltac:(cbn; auto)) as [_ Z2]. rewrite S20 in Z2. rewrite Rmult_1_r in Z2. rewrite Z2 by (unfold steady; rewrite S20; lra).
  replace (dev z01 (f2 (qz 2) (qz 0)) 0) with 1%Qc by vcalc. replace (avg z01 (f2 (qz 0) (qz 2))) with 1%Qc by vcalc. rewrite qr_1. lra.
Qed.
(** C126 *)
Lemma c126_refuted : exists E G L RL XL S t blas blos bpts las los pts loc rho bg nE bratios background background_corr pobs pratios pbg pbg_corr b bc x xc s o out,
  setting G L S t blas blos bpts las los pts loc rho bg /\ rlib_ok RL /\ xlib_ok XL /\
  utem_input (zlen blas) (zlen las) nE bratios background background_corr pobs pratios pbg pbg_corr /\
  utem_data (zlen blas) (zlen las) nE background background_corr pbg pbg_corr pobs pratios b bc x xc s o /\
  (forall y e, 0 <= y < zlen blas -> 0 <= e < nE -> get2 background_corr y e = Ok (fz 0)) /\
  utem E G L RL XL S bpts bratios background background_corr pts pobs pratios pbg pbg_corr 0 true = Ok out /\
  get2 background 0 0 = Ok (fz 0) /\ get2 out 0 0 = Ok (RF 1).
Proof.
  destruct (one_run 0 2 0 0 0 2 0 2 3 true) as (out & a & H & HA & Ho).
  exists E0, G0, L0, RL0, XL0, (sf0 (qz 10)), Cartesian, (zeros [0]), (map qz [0]), (xpts [0]), (zeros [0]), (map qz [0]), (xpts [0]), (fun _ => Fin (qz 10)), kern, kern, 2,
    [fz 1], [[fz 0; fz 2]], [[fz 0; fz 0]], [fz 3], [fz 1], [[fz 0; fz 2]], [[fz 0; fz 2]]. do 6 eexists. exists out.
  split; [exact set02|]. split; [exact rlib_ok_RL0|]. split; [exact xlib_ok_XL0|]. split; [apply one_in|]. split; [apply one_data|].
  split; [intros k e Hk He; change (zlen (zeros [0])) with 1 in Hk; assert (k = 0) as -> by lia; assert (e = 0 \/ e = 1) as [-> | ->] by lia; reflexivity|].
  split; [exact H|]. split; [reflexivity|].
  destruct (Ho 0 ltac:(cbn; auto)) as (z & Ez & Z1 & _). rewrite Ez, (Z1 eq_refl). do 2 f_equal.
  rewrite (steady_point _ _ _ _ _ _ _ _ _ _ 0 steady_const HA) by (cbn; auto). replace (avg z01 (f2 (qz 0) (qz 2))) with 1%Qc by vcalc. apply qr_1.
Qed.
(** the example of C124: mean 7/3 *)
Lemma ex124 : exists out a, utem E0 G0 L0 RL0 XL0 (sf0 (qz 10)) (xpts [0]) [fz 1] [[fz 0; fz 2]] [[fz 0; fz 2]] (xpts [0]) [fz 3] [fz 1] [[fz 0; fz 2]] [[fz 0; fz 2]] 0 true = Ok out /\
  (forall e, In e z01 -> get2 out 0 e = Ok (RF (a e))) /\ ravg z01 a = (7 / 3)%R /\ rvar z01 a = (2 / 3)%R.
Proof.
  destruct (one_run 0 2 0 2 0 2 0 2 3 true) as (out & a & H & HA & Ho). exists out, a. split; [exact H|].
  split; [intros e He; destruct (Ho e He) as (z & Ez & Z1 & _); rewrite Ez, Z1; reflexivity|].
  destruct HA as (cs & cx & cxx & m & q & zx & zs & T & (C1 & C2 & C3) & (v & [Hv _] & Em) & (u & [Hu _] & Eq & _) & _ & _ & _ & Eavg & Evar & _). rewrite Eavg, Evar.
  change (IZR (zlen z01) / IZR (zlen z01 - 1))%R with (2 / 1)%R in *.
  destruct (C1 0 0 ltac:(cbn; auto) ltac:(cbn; auto)) as (c1 & K1 & E1). apply corr02 in K1. subst c1.
  destruct (C2 0 ltac:(cbn; auto)) as (c2 & K2 & E2). apply corr02 in K2. subst c2.
  destruct C3 as (c3 & K3 & E3). apply corr02 in K3. subst c3.
  specialize (Hv 0 ltac:(cbn; auto)). specialize (Hu 0 ltac:(cbn; auto)). unfold rtot in Hv, Hu, Em, Eq. cbn [map fold_right] in Hv, Hu, Em, Eq. rewrite Z.eqb_refl in Hv, Hu. rewrite E1 in Hv, Hu. rewrite E2 in Em, Eq, Hu. rewrite E3 in Eq.
  replace (1 / 1)%Qc with 1%Qc in Hv, Hu by vcalc. replace (qz 3 - avg z01 (f2 (qz 0) (qz 2)))%Qc with (qz 2) in Hv by vcalc. replace (avg z01 (f2 (qz 0) (qz 2))) with 1%Qc in Em by vcalc.
  rewrite sdev02 in Eq. rewrite qr_1, ?qr_z in *. split; lra.
Qed.
(** C127: two stations; the departures of the second member are -4 and 16, its increment is -5 *)
Lemma two_chosen pobs p1 pos U o0 o1 : p_lon p1 = fz 0 -> pobs = [Fin o0; Fin o1] -> pos = position G0 Cartesian (qz 0) (qz 0) ->
  chosen G0 Cartesian (zeros [0; 0]) (map qz [0; 0]) (xpts [0; 0]) pobs pobs (fun _ => Fin (qz 10)) kern 0 p1 pos U -> U = [0; 1] \/ U = [1; 0].
Proof.
  intros E -> -> (ND & HU & _ & HA & _).
  assert (I01 : forall k, k = 0 \/ k = 1 -> In k U).
  { intros k Hk. apply HA; [auto|]. exists (position G0 Cartesian (qz 0) (qz 0)). destruct Hk as [-> | ->]; eexists.
    - exists o0, o0. split; [exists (qz 0), (qz 0); repeat split|]. split; [split; [repeat split; vm_compute; discriminate|vm_compute; discriminate]|]. split; [cbn; reflexivity|]. split; [reflexivity|]. split; [reflexivity|].
      unfold kern. rewrite E. vm_compute. reflexivity.
    - exists o1, o1. split; [exists (qz 0), (qz 0); repeat split|]. split; [split; [repeat split; vm_compute; discriminate|vm_compute; discriminate]|]. split; [cbn; reflexivity|]. split; [reflexivity|]. split; [reflexivity|].
      unfold kern. rewrite E. vm_compute. reflexivity. }
  assert (A : forall k, In k U -> k = 0 \/ k = 1). { intros k Hk. destruct (HU k Hk) as (q & ? & ? & ? & Hq & _). apply point_at_range in Hq. unfold zlen in Hq; cbn in Hq. lia. }
  destruct U as [|i [|j [|l U]]].
  - destruct (I01 0); auto.
  - destruct (I01 0) as [X|[]]; [auto|]. destruct (I01 1) as [X'|[]]; [auto|]. lia.
  - inversion ND as [|? ? N1 _]; subst. destruct (A i ltac:(cbn; auto)) as [-> | ->], (A j ltac:(cbn; auto)) as [-> | ->]; auto; exfalso; apply N1; left; reflexivity.
  - exfalso. inversion ND as [|? ? N1 ND1]; subst. inversion ND1 as [|? ? N2 _]; subst. cbn in N1, N2.
    destruct (A i ltac:(cbn; auto)) as [-> | ->], (A j ltac:(cbn; auto)) as [-> | ->], (A l ltac:(cbn; auto)) as [-> | ->]; tauto.
Qed.
Notation xA := (cons (cons (fz 0) (cons (fz 10) nil)) (cons (cons (fz 0) (cons (fz 10) nil)) nil)).
Notation xcA := (cons (cons (fz 0) (cons (fz 0) nil)) (cons (cons (fz 0) (cons (fz 0) nil)) nil)).
Notation bA := (cons (cons (fz 1) (cons (fz (-1)) nil)) (cons (cons (fz 10) (cons (fz (-10)) nil)) nil)).
Definition bfun (k : Z) : Z -> Qc := if k =? 0 then f2 (qz 1) (qz (-1)) else f2 (qz 10) (qz (-10)).
Lemma set00 : setting G0 L0 (sf0 (qz 10)) Cartesian (zeros [0; 0]) (map qz [0; 0]) (xpts [0; 0]) (zeros [0; 0]) (map qz [0; 0]) (xpts [0; 0]) (fun _ => Fin (qz 10)) kern kern.
Proof. apply setting0; pts_now. Qed.
Lemma two_in : utem_input 2 2 2 [fz 1; fz 1] xA xcA [fz (-5); fz 6] [fz 1; fz 1] bA xcA.
Proof. constructor; try rect_now; reflexivity. Qed.
Lemma two_data : utem_data 2 2 2 xA xcA bA xcA [fz (-5); fz 6] [fz 1; fz 1] bfun (fun _ => f2 (qz 0) (qz 0)) (fun _ => f2 (qz 0) (qz 10)) (fun _ => f2 (qz 0) (qz 0)) (fun _ => 1%Qc) (f2 (qz (-5)) (qz 6)).
Proof.
  constructor.
  1-4: intros k e Hk [He _]; assert (k = 0 \/ k = 1) as [-> | ->] by lia; assert (e = 0 \/ e = 1) as [-> | ->] by lia; reflexivity.
  - intros k Hk. assert (k = 0 \/ k = 1) as [-> | ->] by lia; split; reflexivity.
  - intros k v Hk. pose proof (znth_range _ _ _ Hk) as R. unfold zlen in R; cbn in R. assert (k = 0 \/ k = 1) as [-> | ->] by lia; cbn in Hk; injection Hk as <-; reflexivity.
Qed.
Lemma two_points y p1 pos : bpoint G0 Cartesian (zeros [0; 0]) (map qz [0; 0]) (xpts [0; 0]) y p1 pos -> p_lon p1 = fz 0 /\ known_cell (xpts [0; 0]) kern p1 (fun _ => 1%Qc).
Proof.
  intros Hp. destruct (bpoint_at _ _ _ _ _ _ _ _ Hp) as (la & lo & Hla & _). apply znth_range in Hla. unfold zlen in Hla; cbn in Hla. destruct Hp as [Hp' _].
  assert (K : p_lon p1 = fz 0) by (assert (y = 0 \/ y = 1) as [-> | ->] by lia; cbn in Hp'; injection Hp' as <-; reflexivity). split; [exact K|].
  apply zero_cell; [intros z [<- |[<- |[]]]; reflexivity|exact K].
Qed.
Lemma c127_refuted : exists E G L RL XL S t blas blos bpts las los pts loc rho bg nE bratios background background_corr pobs pratios pbg pbg_corr b bc x xc s o out z,
  setting G L S t blas blos bpts las los pts loc rho bg /\ rlib_ok RL /\ xlib_ok XL /\
  utem_input (zlen blas) (zlen las) nE bratios background background_corr pobs pratios pbg pbg_corr /\
  utem_data (zlen blas) (zlen las) nE background background_corr pbg pbg_corr pobs pratios b bc x xc s o /\
  (forall y p1 pos, bpoint G t blas blos bpts y p1 pos -> known_cell pts bg p1 (fun _ => 1%Qc)) /\
  utem E G L RL XL S bpts bratios background background_corr pts pobs pratios pbg pbg_corr 0 false = Ok out /\
  (forall k, 0 <= k < zlen las -> znth pobs k = Ok (Fin (o k)) /\ get2 pbg k 1 = Ok (Fin (b k 1%Z)) /\ (qz (-4) <= o k - b k 1%Z)%Qc) /\
  get2 background 0 1 = Ok (Fin (x 0 1)) /\ get2 out 0 1 = Ok (RF z) /\ (z - qr (x 0%Z 1%Z) < -4)%R.
Proof.
  assert (KC : forall y p1 pos, bpoint G0 Cartesian (zeros [0; 0]) (map qz [0; 0]) (xpts [0; 0]) y p1 pos -> known_cell (xpts [0; 0]) kern p1 (fun _ => 1%Qc)).
  { intros y p1 pos Hp. apply (two_points y p1 pos Hp). }
  destruct (c129_partial E0 G0 L0 RL0 XL0 (sf0 (qz 10)) Cartesian _ _ _ _ _ _ (fun _ => Fin (qz 10)) kern kern 2 [fz 1; fz 1] xA xcA [fz (-5); fz 6] [fz 1; fz 1] bA xcA 0 false set00 rlib_ok_RL0 xlib_ok_XL0 two_in ltac:(lia) ltac:(left; discriminate) ltac:(reflexivity))
    as [_ T].
  destruct (T _ _ _ _ _ _ two_data) as [out H].
  { intros y Hy. unfold zlen in Hy; cbn in Hy. assert (y = 0 \/ y = 1) as [-> | ->] by lia; exists 1%Qc; reflexivity. }
  { intros y p1 pos Hp. exists (fun _ => 1%Qc). eauto. }
  assert (Hp : exists p1, bpoint G0 Cartesian (zeros [0; 0]) (map qz [0; 0]) (xpts [0; 0]) 0 p1 (position G0 Cartesian (qz 0) (qz 0))).
  { eexists. split; [cbn; reflexivity|]. exists (qz 0), (qz 0). repeat split. }
  destruct Hp as [p1 Hp]. destruct (two_points 0 p1 _ Hp) as [L1 K1].
  destruct (urow E0 G0 L0 RL0 XL0 (sf0 (qz 10)) Cartesian (zeros [0; 0]) (map qz [0; 0]) (zeros [0; 0]) (map qz [0; 0]) (xpts [0; 0]) (xpts [0; 0]) [fz 1; fz 1] xA xcA bA xcA [fz (-5); fz 6] [fz 1; fz 1] 0 false
    (fun _ => Fin (qz 10)) kern kern 2 set00 rlib_ok_RL0 xlib_ok_XL0 two_in ltac:(lia) _ _ _ _ _ _ two_data out 0 1%Qc p1 _ (fun _ => 1%Qc) H eq_refl Hp K1) as (U & HU & RU & NDU & _ & _ & U1).
  eapply two_chosen in HU; [|exact L1|reflexivity|reflexivity].
  assert (NU : U <> []) by (destruct HU as [-> | ->]; discriminate).
  specialize (U1 NU ltac:(discriminate)).
  assert (Ez : get2 out 0 1 = Ok (RF 5)).
  { unfold usummary in U1. change (filter _ (zrange 0 2)) with z01 in U1. destruct U1 as [[(M & P & RM & HM & PL & XE) _]|(P & l & v & _ & U1)].
    - exfalso. assert (HP : forall i j, In i z01 -> In j z01 -> P i j = runit i j).
      { intros i j Hi Hj. rewrite <- (rtot_delta z01 (fun k => P i k) j) by (auto; repeat constructor; cbn; intuition lia). rewrite <- PL by (apply in_zrange; cbn in Hi, Hj; change (zlen z01) with 2; lia).
        apply rtot_ext. intros k Hk. f_equal. unfold rpinv. rewrite rtot_zero; [ring|]. intros k' Hk'. unfold uY. rewrite zsc_steady by apply steady_const. ring. }
      apply (xl0_solves (fun e f => runit e f)); [intros; apply runit_sym|]. exists M, P. split; [exact RM|]. split; [|split; [|exact XE]].
      + intros i j e f Hi Hj. pose proof (znth_range _ _ _ Hi) as Ri. pose proof (znth_range _ _ _ Hj) as Rj. rewrite HM by assumption. unfold zlen in Ri, Rj; cbn in Ri, Rj.
        assert (i = 0 \/ i = 1) as [-> | ->] by lia; assert (j = 0 \/ j = 1) as [-> | ->] by lia; cbn in Hi, Hj; injection Hi as <-; injection Hj as <-; reflexivity.
      + intros e f He Hf. rewrite (rtot_ext z01 _ (fun h => runit e h * runit h f)%R) by (intros h Hh; rewrite HP by assumption; reflexivity).
        apply (rdelta_l z01 (fun h => runit h f)); [repeat constructor; cbn; intuition lia|exact He].
    - destruct (U1 1 ltac:(change (zlen z01) with 2; lia)) as (z & Ez & _ & Z2). change (ix z01 1) with 1 in *. rewrite Ez. specialize (Z2 eq_refl).
      rewrite uincr_steady in Z2 by apply steady_const. replace (dev z01 (f2 (qz 0) (qz 10)) 1) with (qz 5) in Z2 by vcalc. replace (avg z01 (f2 (qz 0) (qz 10))) with (qz 5) by vcalc.
      assert (Z0 : z = 0%R).
      { destruct HU as [-> | ->].
        - assert (EM : amax (udepf z01 [0; 1] bfun (f2 (qz (-5)) (qz 6)) 1) = Fin (qz (-4))) by vcalc. assert (EL : amin (udepf z01 [0; 1] bfun (f2 (qz (-5)) (qz 6)) 1) = Fin (qz (-15))) by vcalc. rewrite EM, EL in Z2.
          unfold ens_limit, rsub, rz in Z2. cbn [v2r rneg radd rltb] in Z2. rewrite !qr_z in Z2. unfold Rltb in Z2. repeat (destruct (Rlt_dec _ _) in Z2; try (exfalso; lra); cbn [andb] in Z2). injection Z2 as Z2. lra.
        - assert (EM : amax (udepf z01 [1; 0] bfun (f2 (qz (-5)) (qz 6)) 1) = Fin (qz 5)) by vcalc. assert (EL : amin (udepf z01 [1; 0] bfun (f2 (qz (-5)) (qz 6)) 1) = Fin (qz (-6))) by vcalc. rewrite EM, EL in Z2.
          unfold ens_limit, rsub, rz in Z2. cbn [v2r rneg radd rltb] in Z2. rewrite !qr_z in Z2. unfold Rltb in Z2. repeat (destruct (Rlt_dec _ _) in Z2; try (exfalso; lra); cbn [andb] in Z2). injection Z2 as Z2. lra. }
      rewrite Z0, qr_z. do 2 f_equal. lra. }
  exists E0, G0, L0, RL0, XL0, (sf0 (qz 10)), Cartesian, (zeros [0; 0]), (map qz [0; 0]), (xpts [0; 0]), (zeros [0; 0]), (map qz [0; 0]), (xpts [0; 0]), (fun _ => Fin (qz 10)), kern, kern, 2,
    [fz 1; fz 1], xA, xcA, [fz (-5); fz 6], [fz 1; fz 1], bA, xcA. do 6 eexists. exists out, 5%R.
  split; [exact set00|]. split; [exact rlib_ok_RL0|]. split; [exact xlib_ok_XL0|]. split; [exact two_in|]. split; [exact two_data|]. split; [exact KC|]. split; [exact H|].
  split; [intros k Hk; unfold zlen in Hk; cbn in Hk; assert (k = 0 \/ k = 1) as [-> | ->] by lia; (split; [reflexivity|]; split; [reflexivity|]); vm_compute; discriminate|].
  split; [reflexivity|]. split; [exact Ez|]. change (f2 (qz 0) (qz 10) 1) with (qz 10). rewrite qr_z. lra.
Qed.
(** the example of C127: without the limit the first member would become 5; the departure is 1 *)
Lemma ex127 : exists out a, utem E0 G0 L0 RL0 XL0 (sf0 (qz 10)) (xpts [0]) [fz 1] [[fz 0; fz 10]] [[fz 0; fz 0]] (xpts [0]) [fz 1] [fz 1] [[fz 0; fz 2]] [[fz 0; fz 2]] 0 false = Ok out /\
  utem_analysis z01 [0] (f2 (qz 0) (qz 10)) (f2 (qz 0) (qz 0)) (fun _ => f2 (qz 0) (qz 2)) (fun _ => 1%Qc) (fun _ => 1%Qc) (fun _ => qz 1 - avg z01 (f2 (qz 0) (qz 2)))%Qc 1%Qc a /\
  a 0 = 5%R /\ get2 out 0 0 = Ok (RF 1).
Proof.
  destruct (one_run 0 10 0 0 0 2 0 2 1 false) as (out & a & H & HA & Ho). exists out, a. split; [exact H|]. split; [exact HA|].
  assert (A0 : a 0 = 5%R).
  { rewrite (steady_point _ _ _ _ _ _ _ _ _ _ 0 steady_const HA) by (cbn; auto). replace (avg z01 (f2 (qz 0) (qz 10))) with (qz 5) by vcalc. apply qr_z. }
  split; [exact A0|]. destruct (Ho 0 ltac:(cbn; auto)) as (z & Ez & _ & Z2). rewrite Ez. do 2 f_equal. destruct (Z2 eq_refl) as [Z3 _]. change (f2 (qz 0) (qz 2) 0) with (qz 0) in Z3. change (f2 (qz 0) (qz 10) 0) with (qz 0) in Z3.
  replace (qz 1 - qz 0)%Qc with (qz 1) in Z3 by vcalc. rewrite !qr_z, A0 in Z3. specialize (Z3 ltac:(lra)). rewrite Rmin_left, Rmax_right in Z3 by lra. lra.
Qed.
(** C129: more observations than background points *)
Lemma c129_refuted : exists E G L RL XL S t blas blos bpts las los pts loc rho bg nE bratios background background_corr pobs pratios pbg pbg_corr b bc x xc s o,
  setting G L S t blas blos bpts las los pts loc rho bg /\ rlib_ok RL /\ xlib_ok XL /\
  utem_input (zlen blas) (zlen las) nE bratios background background_corr pobs pratios pbg pbg_corr /\
  utem_data (zlen blas) (zlen las) nE background background_corr pbg pbg_corr pobs pratios b bc x xc s o /\ blas <> [] /\
  (forall y, 0 <= y < zlen blas -> exists c, znth bratios y = Ok (Fin c)) /\
  (forall y p1 pos, bpoint G t blas blos bpts y p1 pos -> exists g, known_cell pts bg p1 g) /\
  utem E G L RL XL S bpts bratios background background_corr pts pobs pratios pbg pbg_corr 0 true = UB.
Proof.
  assert (ST : setting G0 L0 (sf0 (qz 10)) Cartesian (zeros [0]) (map qz [0]) (xpts [0]) (zeros [0; 0]) (map qz [0; 0]) (xpts [0; 0]) (fun _ => Fin (qz 10)) kern kern) by (apply setting0; pts_now).
  assert (IN : utem_input 1 2 2 [fz 1] [[fz 0; fz 2]] [[fz 0; fz 2]] [fz 3; fz 3] [fz 1; fz 1] [[fz 0; fz 2]; [fz 0; fz 2]] [[fz 0; fz 2]; [fz 0; fz 2]]) by (constructor; try rect_now; reflexivity).
  exists E0, G0, L0, RL0, XL0, (sf0 (qz 10)), Cartesian, (zeros [0]), (map qz [0]), (xpts [0]), (zeros [0; 0]), (map qz [0; 0]), (xpts [0; 0]), (fun _ => Fin (qz 10)), kern, kern, 2,
    [fz 1], [[fz 0; fz 2]], [[fz 0; fz 2]], [fz 3; fz 3], [fz 1; fz 1], [[fz 0; fz 2]; [fz 0; fz 2]], [[fz 0; fz 2]; [fz 0; fz 2]],
    (fun _ => f2 (qz 0) (qz 2)), (fun _ => f2 (qz 0) (qz 2)), (fun _ => f2 (qz 0) (qz 2)), (fun _ => f2 (qz 0) (qz 2)), (fun _ => 1%Qc), (fun _ => qz 3).
  split; [exact ST|]. split; [exact rlib_ok_RL0|]. split; [exact xlib_ok_XL0|]. split; [exact IN|]. split; [|split; [discriminate|split; [|split]]].
  - constructor.
    1-2: intros k e Hk [He _]; unfold zlen in Hk; cbn in Hk; assert (k = 0 \/ k = 1) as [-> | ->] by lia; assert (e = 0 \/ e = 1) as [-> | ->] by lia; reflexivity.
    1-2: intros k e Hk [He _]; unfold zlen in Hk; cbn in Hk; assert (k = 0) as -> by lia; assert (e = 0 \/ e = 1) as [-> | ->] by lia; reflexivity.
    + intros k Hk. unfold zlen in Hk; cbn in Hk. assert (k = 0 \/ k = 1) as [-> | ->] by lia; split; reflexivity.
    + intros k v Hk. pose proof (znth_range _ _ _ Hk) as R. unfold zlen in R; cbn in R. assert (k = 0 \/ k = 1) as [-> | ->] by lia; cbn in Hk; injection Hk as <-; reflexivity.
  - intros y Hy. unfold zlen in Hy; cbn in Hy. assert (y = 0) as -> by lia. exists 1%Qc. reflexivity.
  - intros y p1 pos Hp. exists (fun _ => 1%Qc). destruct (bpoint_at _ _ _ _ _ _ _ _ Hp) as (la & lo & Hla & _). apply znth_range in Hla. unfold zlen in Hla; cbn in Hla. assert (y = 0) as -> by lia. destruct Hp as [Hp' _].
    apply zero_cell; [intros z [<- |[<- |[]]]; reflexivity|]. cbn in Hp'. injection Hp' as <-. reflexivity.
  - eapply c129_more_stations; [exact ST|exact IN|lia|discriminate| |reflexivity]. exists 0. split; [lia|]. intros f Hf v Hv. cbn in Hf. intuition subst; cbn in Hv; intuition subst; eexists; reflexivity.
Qed.
