(** The ensemble transform with ensemble correlations: whole function. *)
From Coq Require Import Lra.
From Verif Require Import Base QcTac ListLib RBase P_RBase M_Geo S_Geo S_Near M_Stat S_Stat P_Stat M_OI S_OI P_Geo P_OISum P_OI P_OISolve P_OICell P_OIAll P_OITotal P_CGrad M_EnsMulti M_Ensi M_EnsDyn M_EnsUtem P_EnsSel P_EnsMulti S_EnsMulti S_Ensi S_EnsDyn S_EnsUtem P_RSum P_RAlg P_EnsiCell P_EnsiFin P_EnsiSpec P_EnsiRoot P_Ensi P_EnsDyn P_EnsDynCell P_EnsDynAll P_EnsUtem P_EnsUtemSpec.
Local Open Scope Z_scope.

Lemma mean_fin E ms (f : Z -> Qc) : ms <> [] -> calc_statistic E (map (fun e => Fin (f e)) ms) Mean = Ok (Fin (avg ms f)).
Proof.
  intros NE. rewrite calc_mean, finites_fin. f_equal. rewrite <- qmean_avg. destruct ms; [congruence|reflexivity].
Qed.
Definition stv (ms : list Z) (b bc : Z -> Z -> Qc) (k : Z) : vec * val * list rv :=
  (map (fun e => Fin (dev ms (b k) e)) ms, Fin (avg ms (b k)), map (fun e => RF (zsc ms (bc k) e)) ms).
Lemma stations_ok E nY nS ms f fc (b bc : Z -> Z -> Qc) : 0 <= nY -> NoDup ms -> ms <> [] -> zlen f = nS -> zlen fc = nS -> values_at nS ms f b -> values_at nS ms fc bc ->
  (nS <= nY -> exists gY, utem_stations E nY nS ms f fc = Ok gY /\ forall k, 0 <= k < nS -> znth gY k = Ok (stv ms b bc k)) /\
  (nY < nS -> utem_stations E nY nS ms f fc = UB).
Proof.
  intros HY ND NE L1 L2 HB HC. unfold utem_stations. set (step := fun acc i => _).
  assert (HS : forall acc i, 0 <= i < nS -> step acc i = zset acc i (stv ms b bc i)).
  { intros acc i Hi. unfold step. destruct (znth_some f i ltac:(lia)) as [row Er]. rewrite Er. destruct (znth_some fc i ltac:(lia)) as [crow Ec]. rewrite Ec. cbn [bind]. unfold utem_station.
    rewrite (mapM_ok _ (fun e => Fin (b i e))).
    2:{ intros e He. specialize (HB i e Hi He). unfold get2 in HB. rewrite Er in HB. exact HB. }
    cbn [bind]. rewrite (mapM_ok _ (fun e => Fin (bc i e))).
    2:{ intros e He. specialize (HC i e Hi He). unfold get2 in HC. rewrite Ec in HC. exact HC. }
    cbn [bind]. rewrite mean_fin by exact NE. cbn [bind]. rewrite normed_ok by assumption. cbn [bind is_valid]. rewrite map_map. reflexivity. }
  set (i0 := init1 nY _).
  assert (K : forall j : nat, Z.of_nat j <= nS -> Z.of_nat j <= nY -> exists r, foldM step i0 (zrange 0 (Z.of_nat j)) = Ok r /\ zlen r = nY /\
     forall k, 0 <= k < Z.of_nat j -> znth r k = Ok (stv ms b bc k)).
  { induction j as [|j IH]; intros H1 H2.
    - eexists. split; [reflexivity|]. split; [apply zlen_init1; lia|intros; lia].
    - destruct IH as (r & E1 & E2 & E3); try lia. rewrite (zrange_snoc 0 (Z.of_nat (S j))) by lia. replace (Z.of_nat (S j) - 1) with (Z.of_nat j) by lia.
      rewrite foldM_app, E1. cbn [bind foldM]. rewrite HS by lia. rewrite zset_Ok by lia. eexists. split; [reflexivity|]. rewrite zlen_lset. split; [exact E2|].
      intros k Hk. rewrite znth_lset by lia. destruct (Z.eqb_spec k (Z.of_nat j)) as [-> |N]; [reflexivity|]. apply E3. lia. }
  pose proof (zlen_nonneg f) as Hf. split; intros H.
  - destruct (K (Z.to_nat nS) ltac:(lia) ltac:(lia)) as (r & E1 & _ & E3). rewrite Z2Nat.id in * by lia. exists r. auto.
  - destruct (K (Z.to_nat nY) ltac:(lia) ltac:(lia)) as (r & E1 & E2 & _). rewrite Z2Nat.id in * by lia.
    rewrite (zrange_app 0 nY nS) by lia. rewrite foldM_app, E1. cbn [bind]. rewrite (zrange_cons nY nS) by lia. cbn [foldM]. rewrite HS by lia.
    unfold zset. replace ((nY <? 0) || (zlen r <=? nY))%bool with true by lia. reflexivity.
Qed.
Lemma members_all_filter nE fs : members_all_of nE fs (filter (fun e => forallb (fun f => ok_in f e) fs) (zrange 0 nE)).
Proof.
  split; [apply NoDup_filter, NoDup_zrange|]. intros e. rewrite filter_In, in_zrange, forallb_forall. apply and_iff_compat_l. split; intros H f Hf; apply complete_ok; auto.
Qed.
Definition bval (f : vec2) (k e : Z) : Qc := match get2 f k e with Ok (Fin q) => q | _ => 0%Qc end.
Lemma values_ok n nE ms fs f : members_all_of nE fs ms -> In f fs -> rect n nE f -> values_at n ms f (bval f).
Proof.
  intros [_ HM] Hf R k e Hk He. apply HM in He as [He HC]. destruct (rect_get2 _ _ f k e R Hk He) as [v Hv]. unfold bval. rewrite Hv.
  destruct (HC f Hf v) as [q ->]; [|reflexivity]. eapply znth_In. rewrite (znth_col e n nE f k R) by lia. exact Hv.
Qed.

Section All.
Variables (E : ext) (G : geo) (L : lib) (RL : rlib) (XL : xlib) (S : sfn) (t : ctype) (blas blos las los : list Qc) (bpts pts : points)
  (bratios : vec) (background background_corr pbg pbg_corr : vec2) (pobs pratios : vec) (mp : Z) (ex : bool)
  (loc : point -> val) (rho bg : point -> point -> val) (nE : Z).
Hypothesis HSet : setting G L S t blas blos bpts las los pts loc rho bg.
Let HG := set_geo _ _ _ _ _ _ _ _ _ _ _ _ _ HSet.
Let HLib := set_lib _ _ _ _ _ _ _ _ _ _ _ _ _ HSet.
Let HS := set_sf _ _ _ _ _ _ _ _ _ _ _ _ _ HSet.
Let HB := set_bpts _ _ _ _ _ _ _ _ _ _ _ _ _ HSet.
Let HP := set_pts _ _ _ _ _ _ _ _ _ _ _ _ _ HSet.
Hypothesis HRL : rlib_ok RL.
Hypothesis HXL : xlib_ok XL.
Let nB := zlen blas.
Let nS := zlen las.
Let pvec := map (ptk pts) (zrange 0 nS).
Hypothesis HI : utem_input nB nS nE bratios background background_corr pobs pratios pbg pbg_corr.
Let RB := ut_bg _ _ _ _ _ _ _ _ _ _ HI.
Let RC := ut_bgc _ _ _ _ _ _ _ _ _ _ HI.
Let LBR := ut_br _ _ _ _ _ _ _ _ _ _ HI.
Let LO := ut_obs _ _ _ _ _ _ _ _ _ _ HI.
Let LPR := ut_pr _ _ _ _ _ _ _ _ _ _ HI.
Let RG := ut_pbg _ _ _ _ _ _ _ _ _ _ HI.
Let RGC := ut_pbgc _ _ _ _ _ _ _ _ _ _ HI.
Hypothesis Hmp : 0 <= mp.
Notation fields := [background; background_corr; pbg; pbg_corr].
Let ms := filter (fun e => forallb (fun f => ok_in f e) fields) (zrange 0 nE).
Notation run := (utem E G L RL XL S bpts bratios background background_corr pts pobs pratios pbg pbg_corr mp ex).
Notation cell gY := (utem_cell E G L RL XL S bpts bratios background background_corr pts pvec pobs pratios gY mp ex ms).
Notation chosen' := (chosen G t las los pts pobs pobs loc bg).

Lemma ums : members_all_of nE fields ms. Proof. apply members_all_filter. Qed.
Lemma ums_nodup : NoDup ms. Proof. apply ums. Qed.
Lemma ums_range e : In e ms -> 0 <= e < nE. Proof. intros H. apply ums in H as [H _]. exact H. Qed.
Lemma urun_eq : run = if nS =? 0 then Ok (map (map v2r) background) else
  (r0 <- znth background 0 ;; if zlen ms =? 0 then Ok (map (map v2r) background) else
   gY <- utem_stations E nB nS ms pbg pbg_corr ;; mapM (cell gY) (zrange 0 nB)).
Proof.
  unfold utem. replace (mp <? 0) with false by lia. rewrite (at_type _ _ _ _ _ HB), (at_type _ _ _ _ _ HP), (at_size _ _ _ _ _ HB), (at_size _ _ _ _ _ HP).
  fold (ctype_eqb t t). replace (ctype_eqb t t) with true by (symmetry; apply ctype_eqb_spec; reflexivity). cbn [negb].
  destruct RB as [LB RB2], RG as [LG _], RC as [LC _], RGC as [LGC _]. rewrite LB, LC, LBR, LO, LPR, LG, LGC. fold nB nS. rewrite !Z.eqb_refl. cbn [negb].
  destruct (nS =? 0); [reflexivity|].
  destruct (znth background 0) as [r0| | |] eqn:E0; cbn [bind]; try reflexivity.
  unfold nS at 1. rewrite (pvec_ok _ _ _ _ _ HP). cbn [bind]. rewrite (RB2 _ (znth_In _ _ _ E0)). rewrite members_all.
  2:{ intros f [<- |[<- |[<- |[<- |[]]]]]; eauto. }
  reflexivity.
Qed.
Lemma urows_kept : zlen las = 0 \/ ms = [] -> (blas <> [] \/ las = []) -> run = Ok (map (map v2r) background).
Proof.
  intros C D. rewrite urun_eq. destruct (Z.eqb_spec nS 0) as [E0|N0]; [reflexivity|]. destruct C as [C|C]; [contradiction|].
  destruct (znth_some background 0) as [r0 Hr0].
  { destruct RB as [-> _]. unfold nB. destruct D as [D|D]; [|subst las; elim N0; reflexivity]. destruct blas as [|q l0]; [congruence|]. rewrite zlen_cons. pose proof (zlen_nonneg l0). lia. }
  rewrite Hr0. cbn [bind]. rewrite C. reflexivity.
Qed.
Section Main.
Variables (b bc X XC : Z -> Z -> Qc).
Hypothesis Vb : values_at nS ms pbg b.
Hypothesis Vbc : values_at nS ms pbg_corr bc.
Hypothesis VX : values_at nB ms background X.
Hypothesis VXC : values_at nB ms background_corr XC.
Hypothesis NE : ms <> [].
Section Cell.
Variable gY : list (vec * val * list rv).
Hypothesis HY : forall k, 0 <= k < nS -> znth gY k = Ok (stv ms b bc k).
Lemma ucell_choice y row crow ratio p1 pos : znth background y = Ok row -> znth background_corr y = Ok crow -> znth bratios y = Ok ratio -> bpoint G t blas blos bpts y p1 pos ->
  exists U, chosen' mp p1 pos U /\ (forall k, In k U -> 0 <= k < nS) /\
    (U = [] -> cell gY y = Ok (map v2r row)) /\
    (U <> [] -> cell gY y = ucore E RL XL ms ex (zlen U) (map (fun k => bg p1 (ptk pts k)) U) (map (vk pratios) U) (map (vk pobs) U)
       (map (fun k => Fin (avg ms (b k))) U) (map (fun k => map (fun e => Fin (dev ms (b k) e)) ms) U) (map (fun k => map (fun e => RF (zsc ms (bc k) e)) ms) U) ratio row crow).
Proof.
  intros Hrow Hcrow Hr Hp. destruct (bpoint_at _ _ _ _ _ _ _ _ Hp) as (la & lo & Hla & Hlo & -> & Hp1).
  pose proof (znth_range _ _ _ Hla) as Ry.
  destruct (at_get _ _ _ _ _ y HB Ry) as (p & la' & lo' & _ & Hla' & Hlo' & Gla & Glo & V & _).
  assert (la' = la) by congruence. assert (lo' = lo) by congruence. subst la' lo'.
  destruct (select_ok G L S t blas blos las los bpts pts (fun k => znth pobs k) pobs mp loc rho bg HG HLib HS HB HP) with (y := y) (la := la) (lo := lo) (p1 := p1)
    as (U & HU & RU & EU); auto.
  { intros k Hk. apply vk_ok. fold nS in Hk. lia. }
  exists U. split; [exact HU|]. split; [exact RU|].
  unfold utem_cell. rewrite Hrow, Hcrow, Hr, Gla, Glo, Hp1. cbn [bind]. fold nS in EU. fold pvec in EU. rewrite EU. cbn [bind]. rewrite zlen_map.
  split; [intros ->; reflexivity|]. intros NU.
  assert (Hn : 0 < zlen U) by (destruct U as [|u U']; [congruence|]; rewrite zlen_cons; pose proof (zlen_nonneg U'); lia).
  replace (zlen U =? 0) with false by lia. rewrite !map_map. cbn [fst snd]. rewrite map_id.
  rewrite (mapM_ok _ (vk pobs)) by (intros k Hk; apply vk_ok; specialize (RU k Hk); fold nS in RU; lia). cbn [bind].
  rewrite (mapM_ok _ (stv ms b bc)) by (intros k Hk; apply HY; apply RU; exact Hk). cbn [bind].
  rewrite (mapM_ok _ (vk pratios)) by (intros k Hk; apply vk_ok; specialize (RU k Hk); fold nS in RU; lia). cbn [bind]. rewrite !map_map. reflexivity.
Qed.
Lemma row_fx y row : 0 <= y < nB -> znth background y = Ok row -> forall e, In e ms -> znth row e = Ok (Fin (X y e)).
Proof. intros Hy Hrow e He. specialize (VX y e Hy He). unfold get2 in VX. rewrite Hrow in VX. exact VX. Qed.
Lemma row_fxc y row : 0 <= y < nB -> znth background_corr y = Ok row -> forall e, In e ms -> znth row e = Ok (Fin (XC y e)).
Proof. intros Hy Hrow e He. specialize (VXC y e Hy He). unfold get2 in VXC. rewrite Hrow in VXC. exact VXC. Qed.
(** one row, whatever the observations, ratios and structure function *)
Lemma ucell_total y row p1 pos : znth background y = Ok row -> bpoint G t blas blos bpts y p1 pos ->
  exists U, chosen' mp p1 pos U /\
  ((exists out, cell gY y = Ok out /\ zlen out = nE /\ (forall e, ~ In e ms -> znth out e = znth (map v2r row) e) /\ (U = [] -> out = map v2r row)) \/
   (cell gY y = Throw RuntimeError /\ exists M, r_inv RL M = Throw RuntimeError)).
Proof.
  intros Hrow Hp. destruct (bpoint_at _ _ _ _ _ _ _ _ Hp) as (la & lo & Hla & _). pose proof (znth_range _ _ _ Hla) as Ry.
  destruct (znth_some background_corr y) as [crow Hcrow]; [destruct RC; unfold nB in *; lia|]. destruct (znth_some bratios y) as [ratio Hr]; [unfold nB in *; lia|].
  destruct (ucell_choice y row crow ratio p1 pos Hrow Hcrow Hr Hp) as (U & HU & RU & U0 & U1). exists U. split; [exact HU|].
  assert (LR : zlen row = nE) by (apply RB; eapply znth_In; eauto).
  assert (C : U = [] \/ U <> []) by (destruct U; [left; reflexivity|right; discriminate]). destruct C as [C|C].
  { left. exists (map v2r row). split; [auto|]. rewrite zlen_map. auto. }
  rewrite (U1 C).
  destruct (ucore_total E RL XL ms ex nE U b bc (X y) (XC y) (map (fun k => bg p1 (ptk pts k)) U) (map (vk pratios) U) (map (vk pobs) U) ratio row crow HRL HXL C NE ums_nodup ums_range LR)
    as [(out & Eo & O1 & O2)|O]; try apply zlen_map.
  - apply row_fx; assumption.
  - apply row_fxc; assumption.
  - left. exists out. split; [exact Eo|]. split; [exact O1|]. split; [exact O2|congruence].
  - right. exact O.
Qed.
(** finite data *)
Variables (s o : Z -> Qc).
Hypothesis Ks : forall k, 0 <= k < nS -> znth pratios k = Ok (Fin (s k)) /\ (0 < s k)%Qc.
Hypothesis Ko : forall k v, znth pobs k = Ok (Fin v) -> v = o k.
Lemma ucell_data y row c0 p1 pos g : znth background y = Ok row -> znth bratios y = Ok (Fin c0) -> bpoint G t blas blos bpts y p1 pos -> known_cell pts bg p1 g ->
  exists U, chosen' mp p1 pos U /\ (forall k, In k U -> 0 <= k < nS) /\ NoDup U /\ (forall k, In k U -> (0 < g k)%Qc) /\
    (U = [] -> cell gY y = Ok (map v2r row)) /\
    (U <> [] ->
      ((exists M P, rect (zlen ms) (zlen ms) M /\ (forall i j, 0 <= i < zlen ms -> 0 <= j < zlen ms -> get2 M i j = Ok (RF (IZR (zlen ms - 1) * P i j))) /\
         (forall i j, In i (zrange 0 (zlen ms)) -> In j (zrange 0 (zlen ms)) -> rtot (zrange 0 (zlen ms)) (fun k => P i k * rpinv U (uY ms bc) (urin g s) k j)%R = runit i j) /\ x_eig XL M = None) /\
       cell gY y = Ok (map v2r row)) \/
      exists P l v, usolved ms U bc g s P l v /\ exists out, cell gY y = Ok out /\ zlen out = nE /\ (forall e, ~ In e ms -> znth out e = znth (map v2r row) e) /\
        forall e, 0 <= e < zlen ms -> exists z, znth out (ix ms e) = Ok (RF (qr (avg ms (X y)) + z)%R) /\
          (ex = true -> z = uincr ms U b bc (X y) (XC y) g s o c0 P l v e) /\
          (ex = false -> RF z = ens_limit (RF (uincr ms U b bc (X y) (XC y) g s o c0 P l v e)) (RF (qr (dev ms (X y) (ix ms e)))) (v2r (amax (udepf ms U b o e))) (v2r (amin (udepf ms U b o e))))).
Proof.
  intros Hrow Hr Hp KC. destruct (bpoint_at _ _ _ _ _ _ _ _ Hp) as (la & lo & Hla & _). pose proof (znth_range _ _ _ Hla) as Ry.
  destruct (znth_some background_corr y) as [crow Hcrow]; [destruct RC; unfold nB in *; lia|].
  destruct (ucell_choice y row crow (Fin c0) p1 pos Hrow Hcrow Hr Hp) as (U & HU & RU & U0 & U1). exists U. split; [exact HU|]. split; [exact RU|]. split; [apply HU|].
  assert (LR : zlen row = nE) by (apply RB; eapply znth_In; eauto).
  assert (UK : forall k, In k U -> exists pk v, points_get pts k = Ok pk /\ znth pobs k = Ok (Fin v) /\ (0 < g k)%Qc).
  { intros k Hk. destruct HU as (_ & HU & _). destruct (HU k Hk) as (q & pk & v & bk & _ & _ & Hg & Hv & _ & Hpos). exists pk, v. split; [exact Hg|]. split; [exact Hv|].
    rewrite (KC k pk Hg) in Hpos. rewrite fz0 in Hpos. cbn [vltb] in Hpos. destruct (qltb_spec 0 (g k)); [assumption|discriminate]. }
  assert (Hg : forall k, In k U -> (0 < g k)%Qc) by (intros k Hk; destruct (UK k Hk) as (? & ? & _ & _ & H); exact H).
  split; [exact Hg|]. split; [exact U0|]. intros NU. rewrite (U1 NU).
  assert (Fg : forall i, 0 <= i < zlen U -> znth (map (fun k => bg p1 (ptk pts k)) U) i = Ok (Fin (g (ix U i))) /\ (0 < g (ix U i))%Qc).
  { intros i Hi. pose proof (ix_In U i Hi) as HIn. split; [|apply Hg; exact HIn]. rewrite znth_map_ix by exact Hi. f_equal.
    apply KC. destruct (UK _ HIn) as (pk & _ & Hpk & _). unfold ptk. rewrite Hpk. reflexivity. }
  assert (Fs : forall i, 0 <= i < zlen U -> znth (map (vk pratios) U) i = Ok (Fin (s (ix U i))) /\ (0 < s (ix U i))%Qc).
  { intros i Hi. pose proof (ix_In U i Hi) as HIn. destruct (Ks _ (RU _ HIn)) as [A1 A2]. split; [|exact A2]. rewrite znth_map_ix by exact Hi. f_equal. unfold vk. rewrite A1. reflexivity. }
  assert (Fo : forall i, 0 <= i < zlen U -> znth (map (vk pobs) U) i = Ok (Fin (o (ix U i)))).
  { intros i Hi. pose proof (ix_In U i Hi) as HIn. rewrite znth_map_ix by exact Hi. f_equal. destruct (UK _ HIn) as (_ & v & _ & Hv & _). unfold vk. rewrite Hv. rewrite (Ko _ _ Hv). reflexivity. }
  pose proof (ucore_fin E RL XL ms ex nE U b bc (X y) (XC y) (map (fun k => bg p1 (ptk pts k)) U) (map (vk pratios) U) (map (vk pobs) U) (Fin c0) row crow HRL HXL NU NE ums_nodup ums_range LR
    (row_fx y row Ry Hrow) (row_fxc y crow Ry Hcrow) g s o c0 Fg Fs Fo (zlen_map _ _) eq_refl) as [(M & P & H1 & H2 & H3 & H4 & H5)|H]; [left|right; exact H].
  split; [exists M, P; auto|exact H5].
Qed.
End Cell.
Lemma gY_exists : nS <= nB -> exists gY, utem_stations E nB nS ms pbg pbg_corr = Ok gY /\ forall k, 0 <= k < nS -> znth gY k = Ok (stv ms b bc k).
Proof. apply (stations_ok E nB nS ms pbg pbg_corr b bc (zlen_nonneg _) ums_nodup NE (proj1 RG) (proj1 RGC) Vb Vbc). Qed.
Lemma gY_ub : nB < nS -> utem_stations E nB nS ms pbg pbg_corr = UB.
Proof. apply (stations_ok E nB nS ms pbg pbg_corr b bc (zlen_nonneg _) ums_nodup NE (proj1 RG) (proj1 RGC) Vb Vbc). Qed.
Lemma urun_cells out : run = Ok out -> 0 < nS -> exists gY, (forall k, 0 <= k < nS -> znth gY k = Ok (stv ms b bc k)) /\ zlen out = nB /\
  forall y, 0 <= y < nB -> exists r, znth out y = Ok r /\ cell gY y = Ok r.
Proof.
  intros H Hn. rewrite urun_eq in H. replace (nS =? 0) with false in H by lia. apply bind_Ok in H as (r0 & _ & H).
  replace (zlen ms =? 0) with false in H. 2:{ symmetry. apply Z.eqb_neq. destruct ms; [congruence|]. rewrite zlen_cons. pose proof (zlen_nonneg l). lia. }
  apply bind_Ok in H as (gY & EG & H). exists gY.
  destruct (Z_lt_dec nB nS) as [Lt|Ge]; [rewrite gY_ub in EG by exact Lt; discriminate|]. destruct (gY_exists ltac:(lia)) as (gY' & EG' & HG'). assert (gY' = gY) as -> by congruence.
  split; [exact HG'|]. apply mapM_inv in H as [Lo HC]. rewrite zlen_zrange in Lo. pose proof (zlen_nonneg blas). split; [unfold nB in *; lia|]. intros y Hy. apply HC. rewrite znth_zrange by lia. reflexivity.
Qed.
End Main.
End All.
