(** The ensemble analysis with correlations from the ensemble: statements for the properties and counterexamples. *)
From Coq Require Import Lra.
From Verif Require Import Base QcTac ListLib RBase P_RBase M_Geo S_Geo M_Stat S_Near M_OI M_EnsMulti M_Ensi M_EnsDyn S_OI P_Geo P_OISum P_Grid P_OI P_OIGrid P_OIInv P_OIRef P_OIAll S_EnsMulti P_EnsMulti P_EnsGrid S_Ensi S_EnsDyn P_RSum P_EnsiCell P_EnsiRoot P_EnsiWit P_EnsiFin P_RInv P_EnsDyn P_EnsDynAll.
Local Open Scope Z_scope.

(** C119 *)
Lemma c119_partial : forall E G L RL S t blas blos bpts las los pts loc rho bg nE m bratios background background_corr pobs pratios pbg pbg_corr mp ex out r ratio b,
  setting G L S t blas blos bpts las los pts loc rho bg -> rlib_ok RL ->
  dyn_input (zlen blas) (zlen las) nE m bratios background background_corr pobs pratios pbg pbg_corr -> 0 <= mp ->
  ebe E G L RL S bpts bratios background background_corr pts pobs pratios pbg pbg_corr mp ex = Ok out ->
  known_ratios pts (zlen las) rho pratios r ratio ->
  (forall k o e, get2 pobs k 0 = Ok (Fin o) -> 0 <= e < m -> exists o', get2 pobs k e = Ok (Fin o')) ->
  members_at (zlen las) m pbg_corr b ->
  rect (zlen blas) nE out /\
  (forall y e v, m <= e < nE -> get2 background y e = Ok v -> get2 out y e = Ok (v2r v)) /\
  (forall y s p1 pos g x, znth bratios y = Ok (Fin s) -> bpoint G t blas blos bpts y p1 pos -> known_cell pts bg p1 g ->
     (forall e, 0 <= e < m -> get2 background_corr y e = Ok (Fin (x e))) ->
     exists U, chosen G t las los pts (col 0 pobs) (col 0 pobs) loc bg mp p1 pos U /\
       forall e v d, 0 <= e < m -> get2 background y e = Ok (Fin v) -> departures (col e pobs) (col e pbg) d ->
       exists o, get2 out y e = Ok o /\ dynamic_analysis (IZR m / IZR (m - 1)) (zrange 0 m) U x b r ratio g d s ex v o).
Proof.
  intros until b. intros HS HR HI Hmp. eapply (c119_sec E G L RL S t blas blos las los bpts pts bratios background background_corr pobs pbg pbg_corr pratios mp ex loc rho bg nE m HS HR HI Hmp).
Qed.
(** C120 *)
Lemma c120_partial : forall E G L RL S t blas blos bpts las los pts loc rho bg nE m bratios background background_corr pobs pratios pbg pbg_corr mp ex,
  setting G L S t blas blos bpts las los pts loc rho bg -> rlib_ok RL ->
  dyn_input (zlen blas) (zlen las) nE m bratios background background_corr pobs pratios pbg pbg_corr -> 0 <= mp -> (blas <> [] \/ las = []) -> zlen las <= zlen blas ->
  ((exists out, ebe E G L RL S bpts bratios background background_corr pts pobs pratios pbg pbg_corr mp ex = Ok out) \/
   (ebe E G L RL S bpts bratios background background_corr pts pobs pratios pbg pbg_corr mp ex = Throw RuntimeError /\ exists M, r_inv RL M = Throw RuntimeError)) /\
  (forall r ratio, known_ratios pts (zlen las) rho pratios r ratio ->
     (forall U c, NoDup U -> (forall k, In k U -> 0 <= k < zlen las) -> (0 <= rtot U (fun k => rtot U (fun j => c k * c j * qr (r k j))))%R) ->
     (forall k, 0 <= k < zlen las -> (0 < ratio k)%Qc) ->
     exists out, ebe E G L RL S bpts bratios background background_corr pts pobs pratios pbg pbg_corr mp ex = Ok out).
Proof.
  intros until ex. intros HS HR HI Hmp. eapply (c120_sec E G L RL S t blas blos las los bpts pts bratios background background_corr pobs pbg pbg_corr pratios mp ex loc rho bg nE m HS HR HI Hmp).
Qed.
Lemma c120_more_stations : forall E G L RL S t blas blos bpts las los pts loc rho bg nE m bratios background background_corr pobs pratios pbg pbg_corr mp ex,
  setting G L S t blas blos bpts las los pts loc rho bg -> rlib_ok RL ->
  dyn_input (zlen blas) (zlen las) nE m bratios background background_corr pobs pratios pbg pbg_corr -> 0 <= mp -> blas <> [] -> 0 < m -> zlen blas < zlen las ->
  ebe E G L RL S bpts bratios background background_corr pts pobs pratios pbg pbg_corr mp ex = UB.
Proof.
  intros until ex. intros HS HR HI Hmp HB Hm HL. exact (c120_ub E G L RL S t blas blos las los bpts pts bratios background background_corr pobs pbg pbg_corr pratios mp ex loc rho bg nE m HS HI Hmp Hm HB HL).
Qed.
(** C121 *)
Lemma c121_all : forall E G L RL S bpts bratios background background_corr pts pobs pratios pbg pbg_corr mp ex,
  (mp < 0 \/ points_type bpts <> points_type pts \/ zlen background <> points_size bpts \/ zlen background_corr <> points_size bpts \/ zlen bratios <> points_size bpts \/
   zlen pobs <> points_size pts \/ zlen pratios <> points_size pts \/ zlen pbg <> points_size pts \/ zlen pbg_corr <> points_size pts) ->
  ebe E G L RL S bpts bratios background background_corr pts pobs pratios pbg pbg_corr mp ex = Throw InvalidArgument.
Proof.
  intros. unfold ebe. destruct (mp <? 0) eqn:E1; [reflexivity|].
  destruct (negb (match points_type bpts, points_type pts with Geodetic, Geodetic => true | Cartesian, Cartesian => true | _, _ => false end)) eqn:E2; [reflexivity|].
  destruct (zlen background =? points_size bpts) eqn:E3; [cbn [negb]|reflexivity].
  destruct (zlen background_corr =? points_size bpts) eqn:E4; [cbn [negb]|reflexivity].
  destruct (zlen bratios =? points_size bpts) eqn:E5; [cbn [negb]|reflexivity].
  destruct (zlen pobs =? points_size pts) eqn:E6; [cbn [negb]|reflexivity].
  destruct (zlen pratios =? points_size pts) eqn:E7; [cbn [negb]|reflexivity].
  destruct (zlen pbg =? points_size pts) eqn:E8; [cbn [negb]|reflexivity].
  destruct (zlen pbg_corr =? points_size pts) eqn:E9; [cbn [negb]|reflexivity].
  exfalso. destruct H as [H|[H|H]]; [lia| |lia]. apply H. destruct (points_type bpts), (points_type pts); try reflexivity; discriminate.
Qed.
(** C122 *)
Lemma sized3_ok n m k f : 0 < n -> 0 < m -> rect3 n m k f -> sized3 n m k f = Ok tt.
Proof.
  intros Hn Hm [[R1 R2] R3]. unfold sized3. destruct (znth_some f 0 ltac:(lia)) as [r0 Hr]. rewrite Hr. cbn [bind].
  pose proof (R2 r0 (znth_In _ _ _ Hr)) as L1. destruct (znth_some r0 0 ltac:(lia)) as [e0 He]. rewrite He. cbn [bind].
  rewrite R1, L1, (R3 r0 e0) by (eapply znth_In; eauto). rewrite !Z.eqb_refl. reflexivity.
Qed.
Lemma fold_len {A} (f : list A -> Z -> res (list A)) : (forall a i a', f a i = Ok a' -> zlen a' = zlen a) -> forall l a a', foldM f a l = Ok a' -> zlen a' = zlen a.
Proof.
  intros H. induction l as [|i l IH]; intros a a' E; cbn [foldM] in E; [congruence|]. apply bind_Ok in E as (a1 & E1 & E2). rewrite (IH _ _ E2). eauto.
Qed.
Lemma zset_len {A} (a : list A) i v a' : zset a i v = Ok a' -> zlen a' = zlen a.
Proof. unfold zset. destruct (_ || _)%bool; [discriminate|]. intros H. injection H as <-. apply zlen_lset. Qed.
Lemma ebe_rect E G L RL S bpts nB nE bratios background background_corr pts pobs pratios pbg pbg_corr mp ex out : rect nB nE background ->
  ebe E G L RL S bpts bratios background background_corr pts pobs pratios pbg pbg_corr mp ex = Ok out -> rect nB nE out.
Proof.
  intros RB H. unfold ebe in H.
  repeat match type of H with (if ?c then _ else _) = _ => destruct c; [try discriminate|] end; try (injection H as <-; apply rect_map_map; exact RB).
  apply bind_Ok in H as (r0 & _ & H). apply bind_Ok in H as (pv & _ & H). apply bind_Ok in H as (va & _ & H).
  destruct (zlen va =? 0); [injection H as <-; apply rect_map_map; exact RB|]. apply bind_Ok in H as (gZ & _ & H). apply mapM_inv in H as [Lo HC].
  rewrite zlen_zrange in Lo. pose proof (zlen_nonneg background). destruct RB as [R1 R2]. split; [lia|].
  intros r Hr. apply In_znth in Hr as [y Hy]. pose proof (znth_range _ _ _ Hy) as Ry. destruct (HC y y) as (r' & Hr' & Ec); [rewrite znth_zrange by lia; reflexivity|].
  assert (r' = r) as -> by congruence. unfold ebe_cell in Ec. apply bind_Ok in Ec as (row & Hrow & Ec). rewrite <- (R2 row) by (eapply znth_In; eauto).
  do 5 (apply bind_Ok in Ec as (? & _ & Ec)). destruct (_ =? 0) in Ec; [injection Ec as <-; apply zlen_map|].
  do 7 (apply bind_Ok in Ec as (? & _ & Ec)). unfold dyn_update in Ec. do 3 (apply bind_Ok in Ec as (? & _ & Ec)).
  apply fold_len in Ec; [rewrite Ec; apply zlen_map|]. intros a i a' Ha. do 3 (apply bind_Ok in Ha as (? & _ & Ha)). apply zset_len in Ha. exact Ha.
Qed.
Lemma c122_all : forall E G L RL S t Y X lats lons g las los pts loc rho bg bratios background background_corr pobs pratios pbg pbg_corr mp ex nE,
  gsetting G L S t Y X lats lons g las los pts loc rho bg -> las <> [] -> 0 <= mp ->
  rect Y X bratios -> rect3 Y X nE background -> rect3 Y X nE background_corr -> rect (zlen las) nE pobs -> zlen pratios = zlen las ->
  rect (zlen las) nE pbg -> rect (zlen las) nE pbg_corr ->
  exists P, to_points g = Ok P /\ setting G L S t (concat lats) (concat lons) P las los pts loc rho bg /\
  (forall o1, ebe E G L RL S P (concat bratios) (concat background) (concat background_corr) pts pobs pratios pbg pbg_corr mp ex = Ok o1 ->
     exists out, ebe_grid E G L RL S g bratios background background_corr pts pobs pratios pbg pbg_corr mp ex = Ok out /\ rect3 Y X nE out /\
       forall y x e, 0 <= y < Y -> 0 <= x < X -> get3 out y x e = get2 o1 (y * X + x) e) /\
  (forall er, ebe E G L RL S P (concat bratios) (concat background) (concat background_corr) pts pobs pratios pbg pbg_corr mp ex = Throw er ->
     ebe_grid E G L RL S g bratios background background_corr pts pobs pratios pbg pbg_corr mp ex = Throw er).
Proof.
  intros E G L RL S t Y X lats lons g las los pts loc rho bg bratios background background_corr pobs pratios pbg pbg_corr mp ex nE HSet NL Hmp RR RB RC RO LR RG RGC.
  destruct (g_setting _ _ _ _ _ _ _ _ _ _ _ _ _ _ _ HSet) as (P & EP & ES & E2 & E3 & E4 & E5 & HY & HX & E6 & _).
  exists P. split; [exact EP|]. split; [exact ES|].
  assert (Hn : 0 < zlen las) by (destruct las as [|q l]; [congruence|]; rewrite zlen_cons; pose proof (zlen_nonneg l); lia).
  assert (EQ : ebe_grid E G L RL S g bratios background background_corr pts pobs pratios pbg pbg_corr mp ex =
    (o1 <- ebe E G L RL S P (concat bratios) (concat background) (concat background_corr) pts pobs pratios pbg pbg_corr mp ex ;; unflat3r Y X nE o1)).
  { unfold ebe_grid. replace (mp <? 0) with false by lia. rewrite E4. replace (zlen las =? 0) with false by lia. rewrite E5. cbn [bind].
    replace ((Y =? 0) || (X =? 0))%bool with false by lia. rewrite E2, E3. replace (negb _) with false by (destruct t; reflexivity).
    pose proof RB as [[RB1 RB2] RB3]. destruct (znth_some background 0 ltac:(lia)) as [r0 Hr0]. rewrite Hr0. cbn [bind].
    pose proof (RB2 _ (znth_In _ _ _ Hr0)) as Lr. destruct (znth_some r0 0 ltac:(lia)) as [e0 He0]. rewrite He0. cbn [bind].
    pose proof (RB3 _ _ (znth_In _ _ _ Hr0) (znth_In _ _ _ He0)) as Le. rewrite RB1, Lr, Le, !Z.eqb_refl. cbn [negb andb].
    rewrite sized3_ok by (assumption || lia). rewrite !sized_ok by (assumption || lia). cbn [bind]. rewrite LR, Z.eqb_refl. cbn [negb]. rewrite EP. cbn [bind].
    rewrite flat_ok by (assumption || lia). cbn [bind]. rewrite !flat3_ok by (assumption || lia). reflexivity. }
  split.
  - intros o1 H. rewrite EQ, H. cbn [bind]. apply unflat3r_ok; [lia|lia|]. eapply ebe_rect; [|exact H]. apply rect3_concat. exact RB.
  - intros er H. rewrite EQ, H. reflexivity.
Qed.

(** *** the correlations are too large by n/(n-1): two members, one station at the background point *)
Lemma qr_q2 : qr (Q2Qc (0 # 1)) = 0%R.
Proof. exact qr_0. Qed.
Notation z01 := (cons 0 (cons 1 nil)).
Notation b02 := (f2 (qz 0) (qz 2)).
Lemma sdev02 : sdev z01 b02 = 1%R.
Proof.
  unfold sdev. replace (tot z01 (fun e => dev z01 b02 e * dev z01 b02 e) / qz (zlen z01))%Qc with 1%Qc by vcalc. rewrite qr_1. apply sqrt_1.
Qed.
Lemma corr02 c : correlation z01 b02 b02 c -> c = 1%R.
Proof.
  intros [_ H]. assert (N : ~ steady z01 b02) by (unfold steady; rewrite sdev02; lra). specialize (H N N). rewrite sdev02 in H.
  replace (tot z01 (fun e => dev z01 b02 e * dev z01 b02 e) / qz (zlen z01))%Qc with 1%Qc in H by vcalc. rewrite qr_1 in H. lra.
Qed.
Lemma dyn02 f r ratio g d v o : (0 <= f)%R -> r = 1%Qc -> ratio 0 = 1%Qc -> g 0 = 1%Qc -> dynamic_analysis f z01 [0] b02 (fun _ => b02) (fun _ _ => r) ratio g d 1%Qc true v o ->
  o = RF (qr v + f / (f + 1) * qr (d 0%Z))%R.
Proof.
  intros Hf -> Hr Hg (cs & cx & H1 & H2 & _ & H3). destruct (H3 ltac:(discriminate)) as (w & z & Hw & _ & -> & Hz & _). rewrite (Hz eq_refl). 
  specialize (Hw 0 (or_introl eq_refl)). unfold rtot in *. cbn [map fold_right] in *. rewrite Z.eqb_refl in Hw.
  rewrite (corr02 _ (H1 0 0 (or_introl eq_refl) (or_introl eq_refl))), (corr02 _ (H2 0 (or_introl eq_refl))), Hr, Hg, !qr_1 in Hw. rewrite qr_1.
  assert (E : w 0%Z = (f / (f + 1))%R) by (apply (Rmult_eq_reg_r (f + 1)); [field_simplify; lra|lra]). rewrite E. f_equal. ring.
Qed.
Lemma one_chosen pobs p1 pos U : p_lon p1 = fz 0 -> zlen pobs = 1 -> (exists o, znth pobs 0 = Ok (Fin o)) -> pos = position G0 Cartesian (qz 0) (qz 0) ->
  chosen G0 Cartesian (zeros [0]) (map qz [0]) (xpts [0]) pobs pobs (fun _ => Fin (qz 10)) kern 0 p1 pos U -> U = [0].
Proof.
  intros E L [o Ho] -> (ND & HU & _ & HA & _).
  assert (I0 : In 0 U). { apply HA; [auto|]. destruct pobs as [|v [|? ?]]; cbn in Ho; try discriminate; [|rewrite !zlen_cons in L; pose proof (zlen_nonneg l); lia]. injection Ho as ->.
    destruct (zero_chosen [Fin o] o p1 E eq_refl) as (_ & H & _). apply H. left. reflexivity. }
  assert (A : forall k, In k U -> k = 0). { intros k Hk. destruct (HU k Hk) as (q & ? & ? & ? & Hq & _). apply point_at_range in Hq. unfold zlen in Hq; cbn in Hq. lia. }
  destruct U as [|a U]; [destruct I0|]. rewrite (A a (or_introl eq_refl)) in *. f_equal. destruct U as [|c U]; [reflexivity|].
  exfalso. inversion ND as [|? ? N1 _]; subst. apply N1. rewrite (A c) by (cbn; auto). left. reflexivity.
Qed.
Lemma psd1 (r : Z -> Z -> Qc) n : n = 1 -> (0 <= r 0%Z 0%Z)%Qc -> forall U c, NoDup U -> (forall k, In k U -> 0 <= k < n) -> (0 <= rtot U (fun k => rtot U (fun j => c k * c j * qr (r k j))))%R.
Proof.
  intros -> Hr U c ND HU. destruct U as [|a U]; [unfold rtot; cbn; lra|]. assert (a = 0) as -> by (specialize (HU a (or_introl eq_refl)); lia).
  destruct U as [|a' U]; [|exfalso; inversion ND as [|? ? N1 _]; subst; apply N1; left; specialize (HU a' ltac:(cbn; auto)); lia].
  unfold rtot. cbn [map fold_right]. apply qr_le in Hr. rewrite qr_0 in Hr. pose proof (Rle_0_sqr (c 0)) as S0. unfold Rsqr in S0. pose proof (Rmult_le_pos _ _ S0 Hr). lra.
Qed.
Lemma in_dyn02 : dyn_input 1 1 2 2 [fz 1] [[fz 0; fz 2]] [[fz 0; fz 2]] [[fz 3; fz 3]] [fz 1] [[fz 0; fz 2]] [[fz 0; fz 2]].
Proof.
  constructor; try rect_now; try reflexivity; try lia. intros e He. assert (e = 0 \/ e = 1) as [-> | ->] by lia; repeat split; intros v [<- |[]]; eexists; reflexivity.
Qed.
Lemma ratios02 : known_ratios (xpts [0]) 1 kern [fz 1] (fun _ _ => 1%Qc) (fun _ => 1%Qc).
Proof.
  split.
  - intros k j pk pj Hk Hj. destruct (zero_cell (xpts [0]) pk) with (k := j) (pk := pj); auto; [intros z [<- |[]]; reflexivity|].
    unfold points_get in Hk. apply bind_Ok in Hk as (la & _ & Hk). apply bind_Ok in Hk as (lo & Hlo & Hk). repeat (apply bind_Ok in Hk as (? & _ & Hk)). injection Hk as <-. cbn [p_lon].
    apply znth_In in Hlo. destruct Hlo as [<- |[]]. reflexivity.
  - intros k Hk. assert (k = 0) as -> by lia. reflexivity.
Qed.
Lemma set02 : setting G0 L0 (sf0 (qz 10)) Cartesian (zeros [0]) (map qz [0]) (xpts [0]) (zeros [0]) (map qz [0]) (xpts [0]) (fun _ => Fin (qz 10)) kern kern.
Proof. apply setting0; pts_now. Qed.
Lemma at02 : members_at 1 2 [[fz 0; fz 2]] (fun _ => b02).
Proof. intros k e Hk He. assert (k = 0) as -> by lia. assert (e = 0 \/ e = 1) as [-> | ->] by lia; reflexivity. Qed.
Lemma dep02 : departures (col 0 [[fz 3; fz 3]]) (col 0 [[fz 0; fz 2]]) (fun _ => qz 3).
Proof. intros k o b Ho Hb. pose proof (znth_range _ _ _ Ho) as R. unfold zlen in R; cbn in R. assert (k = 0) as -> by lia. cbn in Ho, Hb. injection Ho as <-. injection Hb as <-. vcalc. Qed.
Lemma ex119 : exists out, ebe E0 G0 L0 RL0 (sf0 (qz 10)) (xpts [0]) [fz 1] [[fz 0; fz 2]] [[fz 0; fz 2]] (xpts [0]) [[fz 3; fz 3]] [fz 1] [[fz 0; fz 2]] [[fz 0; fz 2]] 0 true = Ok out /\
  get2 out 0 0 = Ok (RF 2).
Proof.
  destruct (c120_partial E0 G0 L0 RL0 (sf0 (qz 10)) Cartesian _ _ _ _ _ _ _ kern kern 2 2 [fz 1] [[fz 0; fz 2]] [[fz 0; fz 2]] [[fz 3; fz 3]] [fz 1] [[fz 0; fz 2]] [[fz 0; fz 2]] 0 true set02 rlib_ok_RL0 in_dyn02) as [_ T];
    [lia|left; discriminate|reflexivity|].
  destruct (T _ _ ratios02) as [out H].
  { apply psd1; [reflexivity|discriminate]. }
  { intros; reflexivity. }
  exists out. split; [exact H|].
  destruct (c119_partial E0 G0 L0 RL0 (sf0 (qz 10)) Cartesian _ _ _ _ _ _ _ kern kern 2 2 [fz 1] [[fz 0; fz 2]] [[fz 0; fz 2]] [[fz 3; fz 3]] [fz 1] [[fz 0; fz 2]] [[fz 0; fz 2]] 0 true out _ _ (fun _ : Z => b02) set02 rlib_ok_RL0 in_dyn02
    ltac:(lia) H ratios02) as (_ & _ & A); [|exact at02|].
  { intros k o e Hk He. exists (qz 3). unfold get2 in Hk. apply bind_Ok in Hk as (rw & Hk & _). pose proof (znth_range _ _ _ Hk) as R. unfold zlen in R; cbn in R. assert (k = 0) as -> by lia.
    assert (e = 0 \/ e = 1) as [-> | ->] by lia; reflexivity. }
  destruct (points_get (xpts [0]) 0) as [p1| | |] eqn:Ep; try discriminate.
  assert (L1 : p_lon p1 = fz 0) by (cbn in Ep; injection Ep as <-; reflexivity).
  destruct (A 0 1%Qc p1 (position G0 Cartesian (qz 0) (qz 0)) (fun _ => 1%Qc) b02 eq_refl) as (U & HU & D).
  { split; [exact Ep|]. exists (qz 0), (qz 0). repeat split. }
  { apply zero_cell; [intros z [<- |[]]; reflexivity|exact L1]. }
  { intros e He. assert (e = 0 \/ e = 1) as [-> | ->] by lia; reflexivity. }
  apply one_chosen in HU; [|exact L1|reflexivity|exists (qz 3); reflexivity|reflexivity]. subst U.
  destruct (D 0 0%Qc (fun _ => qz 3) ltac:(lia) eq_refl dep02) as (o & Ho & HD).
  change (2 - 1) with 1 in HD.
  apply dyn02 in HD; [|lra|reflexivity|reflexivity|reflexivity]. rewrite Ho, HD. do 2 f_equal. rewrite qr_0, qr_z. change (2 - 1) with 1. lra.
Qed.
Lemma c119_refuted : exists E G L RL S t blas blos bpts las los pts loc rho bg nE bratios background background_corr pobs pratios pbg pbg_corr out r ratio b s p1 pos g x v d o,
  setting G L S t blas blos bpts las los pts loc rho bg /\ rlib_ok RL /\
  dyn_input (zlen blas) (zlen las) nE nE bratios background background_corr pobs pratios pbg pbg_corr /\
  ebe E G L RL S bpts bratios background background_corr pts pobs pratios pbg pbg_corr 0 true = Ok out /\
  known_ratios pts (zlen las) rho pratios r ratio /\ members_at (zlen las) nE pbg_corr b /\
  znth bratios 0 = Ok (Fin s) /\ bpoint G t blas blos bpts 0 p1 pos /\ known_cell pts bg p1 g /\
  (forall e, 0 <= e < nE -> get2 background_corr 0 e = Ok (Fin (x e))) /\ get2 background 0 0 = Ok (Fin v) /\ departures (col 0 pobs) (col 0 pbg) d /\
  get2 out 0 0 = Ok o /\
  forall U, chosen G t las los pts (col 0 pobs) (col 0 pobs) loc bg 0 p1 pos U -> ~ dynamic_analysis 1 (zrange 0 nE) U x b r ratio g d s true v o.
Proof.
  destruct ex119 as (out & H & Ho). destruct (points_get (xpts [0]) 0) as [p1| | |] eqn:Ep; try discriminate.
  assert (L1 : p_lon p1 = fz 0) by (cbn in Ep; injection Ep as <-; reflexivity).
  exists E0, G0, L0, RL0, (sf0 (qz 10)), Cartesian, (zeros [0]), (map qz [0]), (xpts [0]), (zeros [0]), (map qz [0]), (xpts [0]), (fun _ => Fin (qz 10)), kern, kern, 2,
    [fz 1], [[fz 0; fz 2]], [[fz 0; fz 2]], [[fz 3; fz 3]], [fz 1], [[fz 0; fz 2]], [[fz 0; fz 2]], out, (fun _ _ => 1%Qc), (fun _ => 1%Qc), (fun _ => b02), 1%Qc, p1, (position G0 Cartesian (qz 0) (qz 0)), (fun _ => 1%Qc), b02, 0%Qc, (fun _ => qz 3), (RF 2).
  split; [exact set02|]. split; [exact rlib_ok_RL0|]. split; [exact in_dyn02|]. split; [exact H|]. split; [exact ratios02|]. split; [exact at02|]. split; [reflexivity|].
  split; [split; [exact Ep|]; exists (qz 0), (qz 0); repeat split|]. split; [apply zero_cell; [intros z [<- |[]]; reflexivity|exact L1]|].
  split; [intros e He; assert (e = 0 \/ e = 1) as [-> | ->] by lia; reflexivity|]. split; [reflexivity|]. split; [exact dep02|]. split; [exact Ho|].
  intros U HU D. apply one_chosen in HU; [|exact L1|reflexivity|exists (qz 3); reflexivity|reflexivity]. subst U.
  apply dyn02 in D; [|lra|reflexivity|reflexivity|reflexivity]. injection D as D. rewrite qr_0, qr_z in D. lra.
Qed.
(** an incomplete member before a complete one *)
Lemma c119_missing_refuted : exists E G L RL S t blas blos bpts las los pts loc rho bg background pobs pbg,
  setting G L S t blas blos bpts las los pts loc rho bg /\ rlib_ok RL /\ rect 1 2 background /\ rect 1 2 pobs /\ rect 1 2 pbg /\
  complete 1 background /\ complete 1 pbg /\ complete 0 pbg /\ get2 background 0 0 = Ok NaN /\
  ebe E G L RL S bpts [fz 1] background background pts pobs [fz 1] pbg pbg 0 true = Throw LogicError.
Proof.
  exists E0, G0, L0, RL0, (sf0 (qz 10)), Cartesian, (zeros [2]), (map qz [2]), (xpts [2]), (zeros [0]), (map qz [0]), (xpts [0]), (fun _ => Fin (qz 10)), kern, kern,
    [[NaN; fz 7]], [[fz 1; fz 2]], [[fz 3; fz 4]].
  assert (R : forall a b : val, rect 1 2 [[a; b]]) by (intros; split; [reflexivity|intros r [<- |[]]; reflexivity]).
  split; [apply setting0; pts_now|]. split; [exact rlib_ok_RL0|]. split; [apply R|]. split; [apply R|]. split; [apply R|].
  split; [intros v [<- |[]]; eexists; reflexivity|]. split; [intros v [<- |[]]; eexists; reflexivity|]. split; [intros v [<- |[]]; eexists; reflexivity|].
  split; [reflexivity|]. reflexivity.
Qed.
Lemma c120_refuted : exists E G L RL S t blas blos bpts las los pts loc rho bg nE bratios background background_corr pobs pratios pbg pbg_corr r ratio,
  setting G L S t blas blos bpts las los pts loc rho bg /\ rlib_ok RL /\
  dyn_input (zlen blas) (zlen las) nE nE bratios background background_corr pobs pratios pbg pbg_corr /\ blas <> [] /\
  known_ratios pts (zlen las) rho pratios r ratio /\ (forall k, 0 <= k < zlen las -> (0 < ratio k)%Qc) /\
  (forall U c, NoDup U -> (forall k, In k U -> 0 <= k < zlen las) -> (0 <= rtot U (fun k => rtot U (fun j => c k * c j * qr (r k j))))%R) /\
  ebe E G L RL S bpts bratios background background_corr pts pobs pratios pbg pbg_corr 0 true = UB.
Proof.
  assert (I : dyn_input (zlen (zeros [0])) (zlen (zeros [0; 0])) 2 2 [fz 1] [[fz 0; fz 2]] [[fz 0; fz 2]] [[fz 3; fz 3]; [fz 3; fz 3]] [fz 1; fz 1] [[fz 0; fz 2]; [fz 0; fz 2]] [[fz 0; fz 2]; [fz 0; fz 2]]).
  { constructor; try rect_now; try reflexivity; try lia. intros e He. assert (e = 0 \/ e = 1) as [-> | ->] by lia; repeat split; intros v; cbn; intuition (subst; eexists; reflexivity). }
  assert (ST : setting G0 L0 (sf0 (qz 10)) Cartesian (zeros [0]) (map qz [0]) (xpts [0]) (zeros [0; 0]) (map qz [0; 0]) (xpts [0; 0]) (fun _ => Fin (qz 10)) kern kern) by (apply setting0; pts_now).
  exists E0, G0, L0, RL0, (sf0 (qz 10)), Cartesian, (zeros [0]), (map qz [0]), (xpts [0]), (zeros [0; 0]), (map qz [0; 0]), (xpts [0; 0]), (fun _ => Fin (qz 10)), kern, kern, 2,
    [fz 1], [[fz 0; fz 2]], [[fz 0; fz 2]], [[fz 3; fz 3]; [fz 3; fz 3]], [fz 1; fz 1], [[fz 0; fz 2]; [fz 0; fz 2]], [[fz 0; fz 2]; [fz 0; fz 2]], (fun _ _ => 1%Qc), (fun _ => 1%Qc).
  split; [exact ST|]. split; [exact rlib_ok_RL0|]. split; [exact I|]. split; [discriminate|]. split; [|split; [reflexivity|split]].
  - split.
    + intros k j pk pj Hk Hj. destruct (zero_cell (xpts [0; 0]) pk) with (k := j) (pk := pj); auto; [intros z [<- |[<- |[]]]; reflexivity|].
      unfold points_get in Hk. apply bind_Ok in Hk as (la & _ & Hk). apply bind_Ok in Hk as (lo & Hlo & Hk). repeat (apply bind_Ok in Hk as (? & _ & Hk)). injection Hk as <-. cbn [p_lon].
      apply znth_In in Hlo. destruct Hlo as [<- |[<- |[]]]; reflexivity.
    + intros k Hk. unfold zlen in Hk; cbn in Hk. assert (k = 0 \/ k = 1) as [-> | ->] by lia; reflexivity.
  - intros U c _ _. rewrite qr_1. rewrite (rtot_ext U _ (fun k => c k * rtot U c)%R).
    + rewrite rtot_mul_r. apply Rle_0_sqr.
    + intros k _. rewrite <- rtot_mul_l. apply rtot_ext. intros; ring.
  - eapply c120_more_stations; [exact ST|exact rlib_ok_RL0|exact I|lia|discriminate|lia|reflexivity].
Qed.
(** C123: no spread at the point, or no departures: no change *)
Lemma dyn_zero f ms U x b r ratio g d s ex v o : dynamic_analysis f ms U x b r ratio g d s ex v o -> (steady ms x \/ forall k, In k U -> d k = 0%Qc) -> o = RF (qr v).
Proof.
  intros (cs & cx & _ & H2 & H3 & H4) H. assert (C : U = [] \/ U <> []) by (destruct U; [left; reflexivity|right; discriminate]). destruct C as [EU|NE]; [auto|].
  destruct (H4 NE) as (w & z & Hw & Hu & -> & Hz & Hc).
  assert (T0 : rtot U (fun k => w k * qr (d k))%R = 0%R).
  { apply rtot_zero. intros k Hk. destruct H as [H|H]; [|rewrite H by exact Hk; rewrite qr_0; ring].
    rewrite <- (Hu (fun _ => 0%R)); [ring| |exact Hk]. intros j Hj. destruct (H2 j Hj) as [C0 _]. rewrite C0 by auto. rewrite rtot_zero; [ring|intros; ring]. }
  f_equal. enough (z = 0%R) by lra. destruct ex.
  - rewrite Hz by reflexivity. rewrite T0. ring.
  - destruct (Hc eq_refl) as (lo & hi & _ & _ & [C1 _]). rewrite T0, Rmult_0_r in C1. apply C1. split; right; lra.
Qed.
Lemma c123_all : forall E G L RL S t blas blos bpts las los pts loc rho bg nE m bratios background background_corr pobs pratios pbg pbg_corr mp ex out r ratio,
  setting G L S t blas blos bpts las los pts loc rho bg -> rlib_ok RL ->
  dyn_input (zlen blas) (zlen las) nE m bratios background background_corr pobs pratios pbg pbg_corr -> 0 <= mp ->
  ebe E G L RL S bpts bratios background background_corr pts pobs pratios pbg pbg_corr mp ex = Ok out ->
  known_ratios pts (zlen las) rho pratios r ratio ->
  (forall k o e, get2 pobs k 0 = Ok (Fin o) -> 0 <= e < m -> exists o', get2 pobs k e = Ok (Fin o')) ->
  forall y s p1 pos g x, znth bratios y = Ok (Fin s) -> bpoint G t blas blos bpts y p1 pos -> known_cell pts bg p1 g ->
    (forall e, 0 <= e < m -> get2 background_corr y e = Ok (Fin (x e))) ->
    (steady (zrange 0 m) x -> forall e v, 0 <= e < m -> get2 background y e = Ok (Fin v) -> get2 out y e = Ok (RF (qr v))) /\
    (forall e v, 0 <= e < m -> (forall k o, get2 pobs k e = Ok (Fin o) -> get2 pbg k e = Ok (Fin o)) -> get2 background y e = Ok (Fin v) -> get2 out y e = Ok (RF (qr v))).
Proof.
  intros E G L RL S t blas blos bpts las los pts loc rho bg nE m bratios background background_corr pobs pratios pbg pbg_corr mp ex out r ratio HS HR HI Hmp H KR KO y s p1 pos g x Hs Hp KC Kx.
  destruct (complete_values (zlen las) nE m pbg_corr (dn_pbgc _ _ _ _ _ _ _ _ _ _ _ HI) (dn_m _ _ _ _ _ _ _ _ _ _ _ HI)) as [b Hb].
  { intros e He. apply (dn_ok _ _ _ _ _ _ _ _ _ _ _ HI e He). }
  destruct (c119_partial E G L RL S t blas blos bpts las los pts loc rho bg nE m bratios background background_corr pobs pratios pbg pbg_corr mp ex out r ratio b HS HR HI Hmp H KR KO Hb) as (_ & _ & A).
  destruct (A y s p1 pos g x Hs Hp KC Kx) as (U & HU & D).
  assert (HD : forall e, exists d, departures (col e pobs) (col e pbg) d).
  { intros e. exists (fun k => match znth (col e pobs) k, znth (col e pbg) k with Ok (Fin o), Ok (Fin v) => o - v | _, _ => 0 end)%Qc. intros k o v Ho Hv. rewrite Ho, Hv. reflexivity. }
  pose proof (dn_m _ _ _ _ _ _ _ _ _ _ _ HI) as Hm. pose proof (dn_obs _ _ _ _ _ _ _ _ _ _ _ HI) as RO. pose proof (dn_pbg _ _ _ _ _ _ _ _ _ _ _ HI) as RG.
  split.
  - intros St e v He Hv. destruct (HD e) as [d Hd]. destruct (D e v d He Hv Hd) as (o & Ho & HA). rewrite Ho. f_equal. eapply dyn_zero; eauto.
  - intros e v He Z0 Hv. destruct (HD e) as [d Hd]. destruct (D e v d He Hv Hd) as (o & Ho & HA). rewrite Ho. f_equal. eapply dyn_zero; [exact HA|]. right. intros k Hk.
    destruct HU as (_ & HU & _). destruct (HU k Hk) as (q & pk & o' & b' & Hq & _ & _ & Ho' & _). apply point_at_range in Hq.
    rewrite (znth_col 0 _ _ _ k RO) in Ho' by lia. destruct (KO k o' e Ho' He) as [o2 Ho2]. pose proof (Z0 _ _ Ho2) as Hg.
    rewrite <- (znth_col e _ _ _ k RO) in Ho2 by lia. rewrite <- (znth_col e _ _ _ k RG) in Hg by lia. rewrite (Hd k o2 o2 Ho2 Hg). ring.
Qed.
Lemma ex123 : steady (zrange 0 2) (fun _ => qz 7) /\ ~ steady (zrange 0 2) b02.
Proof.
  unfold steady. split.
  - unfold sdev. replace (tot (zrange 0 2) _ / qz (zlen (zrange 0 2)))%Qc with 0%Qc by vcalc. rewrite qr_0, sqrt_0. lra.
  - change (zrange 0 2) with z01. rewrite sdev02. lra.
Qed.
