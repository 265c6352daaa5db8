(** The ensemble-based analysis: whole function. *)
From Coq Require Import Permutation Lra.
From Verif Require Import Base QcTac ListLib RBase P_RBase M_Geo S_Geo S_Near M_Stat S_Stat P_Stat M_OI M_EnsMulti M_Ensi S_OI P_Geo P_OISum P_OI P_OISolve P_OICell P_OIAll P_OITotal P_EnsSel P_CGrad P_OIGrid S_EnsMulti P_EnsMulti S_Ensi P_RSum P_EnsiAlg P_EnsiCell P_EnsiSpec P_EnsiRoot.
Local Open Scope Z_scope.

(** *** the members *)
Lemma members1_ok nE a n : rect n nE a -> members nE [a] = Ok (filter (ok_in a) (zrange 0 nE)).
Proof.
  intros Ra. unfold members.
  assert (K : forall l acc, (forall e, In e l -> 0 <= e < nE) ->
    foldM (fun acc e => b <- foldM (fun b f => c <- all_valid f e ;; Ok (b && c)%bool) true [a] ;; Ok (if b then acc ++ [e] else acc)) acc l =
    Ok (acc ++ filter (ok_in a) l)).
  { induction l as [|e l IH]; intros acc Hl; cbn [foldM filter]; [rewrite app_nil_r; reflexivity|].
    assert (He : 0 <= e < nE) by (apply Hl; left; reflexivity).
    rewrite (all_valid_ok _ _ _ _ Ra He). cbn [bind andb].
    destruct (ok_in a e); cbn [bind]; rewrite IH by (intros; apply Hl; right; assumption); [|reflexivity]. rewrite <- app_assoc. reflexivity. }
  rewrite K; [reflexivity|]. intros e He. apply in_zrange in He. exact He.
Qed.
Lemma members_of_filter nE a : members_of nE a (filter (ok_in a) (zrange 0 nE)).
Proof.
  split; [apply NoDup_filter, NoDup_zrange|]. intros e. rewrite filter_In, in_zrange, complete_ok. reflexivity.
Qed.
Lemma perturb_size E nE row : 0 <= nE -> zlen row = nE -> exists r m, perturb E nE row = Ok (r, m) /\ zlen r = nE.
Proof.
  intros Hn Hr. unfold perturb. rewrite calc_mean. cbn [bind]. set (mean := match finites row with [] => _ | _ => _ end).
  destruct (mapM_some (fun e => v <- znth row e ;; Ok (if is_valid v && is_valid mean then vsub v mean else v)) (zrange 0 nE)) as [r Er].
  { intros e He. apply in_zrange in He. rewrite (vk_ok row) by lia. cbn [bind]. eauto. }
  rewrite Er. cbn [bind]. exists r, mean. split; [reflexivity|]. apply mapM_inv in Er as [Lr _]. rewrite zlen_zrange in Lr. lia.
Qed.
Lemma perturb_ok E nE (p : Z -> bool) (b : Z -> Qc) row : 0 <= nE -> zlen row = nE -> let ms := filter p (zrange 0 nE) in ms <> [] ->
  (forall e, 0 <= e < nE -> p e = true -> znth row e = Ok (Fin (b e))) ->
  (forall e, 0 <= e < nE -> p e = false -> exists v, znth row e = Ok v /\ is_valid v = false) ->
  exists r, perturb E nE row = Ok (r, Fin (avg ms b)) /\ zlen r = nE /\ forall e, In e ms -> znth r e = Ok (Fin (dev ms b e)).
Proof.
  intros Hn Hr ms NE Hin Hout. unfold perturb. rewrite calc_mean. cbn [bind].
  assert (EF : finites row = map b ms).
  { assert (Er : row = map (vk row) (zrange 0 nE)).
    { apply znth_ext; [rewrite zlen_map, zlen_zrange; lia|]. intros i Hi. rewrite znth_map, znth_zrange by lia. apply vk_ok. lia. }
    assert (K : forall l, (forall e, In e l -> 0 <= e < nE) -> finites (map (vk row) l) = map b (filter p l)).
    { induction l as [|e l IH]; intros Hl; [reflexivity|]. cbn [map filter]. assert (He : 0 <= e < nE) by (apply Hl; left; reflexivity).
      specialize (IH ltac:(intros; apply Hl; right; assumption)). unfold finites in *. cbn [flat_map]. rewrite IH. destruct (p e) eqn:Ep.
      - unfold vk at 1. rewrite (Hin e He Ep). reflexivity.
      - destruct (Hout e He Ep) as (v & Ev & Hv). unfold vk at 1. rewrite Ev. destruct v; try discriminate; reflexivity. }
    rewrite Er. apply K. intros e He. apply in_zrange in He. exact He. }
  rewrite EF.
  assert (EM : (match map b ms with [] => MV | _ :: _ => Fin (qmean (map b ms)) end) = Fin (avg ms b)).
  { destruct ms as [|e ms'] eqn:Em; [congruence|]. cbn [map]. f_equal. unfold qmean, avg, qlen. change (b e :: map b ms') with (map b (e :: ms')). rewrite zlen_map. reflexivity. }
  rewrite EM.
  rewrite (mapM_ok _ (fun e => if is_valid (vk row e) then vsub (vk row e) (Fin (avg ms b)) else vk row e)).
  2:{ intros e He. apply in_zrange in He. rewrite (vk_ok row) by lia. cbn [bind is_valid]. rewrite andb_true_r. reflexivity. }
  cbn [bind]. eexists. split; [reflexivity|]. split; [rewrite zlen_map, zlen_zrange; lia|].
  intros e He. apply filter_In in He as [He Hp]. apply in_zrange in He. rewrite znth_map, znth_zrange by lia. cbn [bind]. replace (0 + e) with e by lia.
  unfold vk. rewrite (Hin e He Hp). reflexivity.
Qed.

(** *** a single member *)
Lemma core_one L EL valid ex lS g sig lObs lYhat lY row (gg s : Z -> Qc) :
  elib_ok EL -> 0 <= lS -> zlen valid = 1 -> (forall i, 0 <= i < lS -> znth g i = Ok (Fin (gg i))) -> (forall i, 0 <= i < lS -> znth sig i = Ok (Fin (s i)) /\ s i <> 0%Qc) ->
  mat lS 1 lY (fun _ _ => 0%Qc) -> core L EL valid ex lS g sig lObs lYhat lY row = Ok (map v2r row).
Proof.
  intros HE HS HV Hg Hs HY. unfold core. rewrite HV. cbn [Z.eqb].
  destruct (ens_c_ok lS 1 g sig lY HS ltac:(lia) gg s _ Hg Hs HY) as (C & EC & MC). rewrite EC. cbn [bind].
  destruct (ens_pinv_ok lS 1 lY ltac:(lia) C _ _ MC HY) as (M & EM & MM). rewrite EM. cbn [bind].
  replace (vleb (e_rcond EL M) (fz 0)) with true; [reflexivity|]. symmetry. apply (ok_rcond _ HE 1 M _ ltac:(lia) MM).
  exists (fun _ => 1%Qc). split; [exists 0; split; [lia|discriminate]|]. intros j Hj.
  rewrite (tot_ext _ _ (fun _ => 0%Qc)); [apply tot_zero; auto|]. intros i _. change (qz (1 - 1)) with 0%Qc. rewrite (tot_ext _ _ (fun _ => 0%Qc)) by (intros; ring). rewrite tot_zero by auto. ring.
Qed.

Lemma limit_one (i xe d z : R) : RF z = ens_limit (RF (i + xe)) (RF xe) (RF d) (RF d) -> rlimited d i (z - xe).
Proof.
  unfold ens_limit, rsub. cbn [rneg radd]. replace (i + xe + - xe)%R with i by ring. unfold rz. cbn [rltb radd]. unfold Rltb.
  destruct (Rlt_dec 0 d), (Rlt_dec d i), (Rlt_dec d 0), (Rlt_dec 0 i), (Rlt_dec i d), (Rlt_dec i 0); cbn [andb]; try (exfalso; lra);
  intros H; injection H as ->; (split; [|split]); intros; unfold Rmax, Rmin; repeat destruct Rle_dec; try lra.
Qed.
Section All.
Variables (E : ext) (G : geo) (L : lib) (EL : elib) (S : sfn) (t : ctype) (blas blos las los : list Qc) (bpts pts : points)
  (background pbg : vec2) (pobs psigmas : vec) (mp : Z) (ex : bool)
  (loc : point -> val) (rho bg : point -> point -> val) (nE : Z).
Hypothesis HSet : setting G L S t blas blos bpts las los pts loc rho bg.
Hypothesis HEL : elib_ok EL.
Let HG := set_geo _ _ _ _ _ _ _ _ _ _ _ _ _ HSet.
Let HLib := set_lib _ _ _ _ _ _ _ _ _ _ _ _ _ HSet.
Let HS := set_sf _ _ _ _ _ _ _ _ _ _ _ _ _ HSet.
Let HB := set_bpts _ _ _ _ _ _ _ _ _ _ _ _ _ HSet.
Let HP := set_pts _ _ _ _ _ _ _ _ _ _ _ _ _ HSet.
Let nS := zlen las.
Let pvec := map (ptk pts) (zrange 0 nS).
Hypothesis HI : ensi_input (zlen blas) nS nE background pobs psigmas pbg.
Let RB := ei_bg _ _ _ _ _ _ _ HI.
Let LO := ei_obs _ _ _ _ _ _ _ HI.
Let LSg := ei_sig _ _ _ _ _ _ _ HI.
Let RG := ei_pbg _ _ _ _ _ _ _ HI.
Hypothesis Hmp : 0 <= mp.
Let ms := filter (ok_in background) (zrange 0 nE).
Definition gYv (k : Z) : vec * val := match (row <- znth pbg k ;; perturb E nE row) with Ok p => p | _ => ([], NaN) end.
Let gY := map gYv (zrange 0 nS).
Notation run := (ensi E G L EL S bpts background pts pobs psigmas pbg mp ex).
Notation cell := (ensi_cell G L EL S bpts background pts pvec pobs psigmas gY mp ex ms).
Notation chosen' := (chosen G t las los pts pobs pobs loc bg).

Lemma nE_pos : 0 < nS -> 0 <= nE.
Proof. intros H. destruct RG as [R1 R2]. destruct (znth_some pbg 0 ltac:(lia)) as [r Er]. rewrite <- (R2 r) by (eapply znth_In; eauto). apply zlen_nonneg. Qed.
Lemma gYv_ok k : 0 <= k < nS -> (row <- znth pbg k ;; perturb E nE row) = Ok (gYv k) /\ zlen (fst (gYv k)) = nE.
Proof.
  intros Hk. pose proof (nE_pos ltac:(lia)) as Hn. unfold gYv. destruct RG as [R1 R2]. destruct (znth_some pbg k ltac:(lia)) as [r Er]. rewrite Er. cbn [bind].
  destruct (perturb_size E nE r Hn (R2 _ (znth_In _ _ _ Er))) as (r' & m & E1 & E2). rewrite E1. auto.
Qed.
Lemma run_eq : run = if nS =? 0 then Ok (map (map v2r) background) else (r0 <- znth background 0 ;; mapM cell (zrange 0 (zlen blas))).
Proof.
  unfold ensi. replace (mp <? 0) with false by lia. rewrite (at_type _ _ _ _ _ HB), (at_type _ _ _ _ _ HP), (at_size _ _ _ _ _ HB), (at_size _ _ _ _ _ HP).
  fold (ctype_eqb t t). replace (ctype_eqb t t) with true by (symmetry; apply ctype_eqb_spec; reflexivity). cbn [negb]. fold nS.
  destruct RB as [LB RB2], RG as [LG _]. rewrite LB, LO, LSg, LG, !Z.eqb_refl. cbn [negb].
  destruct (nS =? 0) eqn:E0; [reflexivity|].
  destruct (znth background 0) as [r0| | |] eqn:Er; cbn [bind]; try reflexivity. rewrite (RB2 _ (znth_In _ _ _ Er)).
  rewrite (mapM_ok _ gYv) by (intros k Hk; apply in_zrange in Hk; apply gYv_ok; exact Hk). cbn [bind].
  unfold nS at 1. rewrite (pvec_ok _ _ _ _ _ HP). cbn [bind]. rewrite (members1_ok nE background _ RB). reflexivity.
Qed.
Lemma ms_range e : In e ms -> 0 <= e < nE.
Proof. intros H. apply filter_In in H as [H _]. apply in_zrange in H. exact H. Qed.
Lemma ms_nodup : NoDup ms.
Proof. apply NoDup_filter, NoDup_zrange. Qed.

Lemma cell_choice y row p1 pos : znth background y = Ok row -> bpoint G t blas blos bpts y p1 pos ->
  exists U, chosen' mp p1 pos U /\ (forall k, In k U -> 0 <= k < nS) /\
    (U = [] -> cell y = Ok (map v2r row)) /\
    (U <> [] -> 0 < zlen U /\ cell y = core L EL ms ex (zlen U) (map (fun k => bg p1 (ptk pts k)) U) (map (vk psigmas) U) (map (vk pobs) U)
       (map (fun k => snd (gYv k)) U) (map (fun k => map (vk (fst (gYv k))) ms) U) row).
Proof.
  intros Hrow Hp. destruct (bpoint_at _ _ _ _ _ _ _ _ Hp) as (la & lo & Hla & Hlo & -> & Hp1).
  pose proof (znth_range _ _ _ Hla) as Ry.
  destruct (at_get _ _ _ _ _ y HB Ry) as (p & la' & lo' & _ & Hla' & Hlo' & Gla & Glo & V & _).
  assert (la' = la) by congruence. assert (lo' = lo) by congruence. subst la' lo'.
  destruct (select_ok G L S t blas blos las los bpts pts (fun k => znth pobs k) pobs mp loc rho bg HG HLib HS HB HP) with (y := y) (la := la) (lo := lo) (p1 := p1)
    as (U & HU & RU & EU); auto.
  { intros k Hk. apply vk_ok. fold nS in Hk. lia. }
  exists U. split; [exact HU|]. split; [exact RU|].
  unfold ensi_cell. rewrite Hrow, Gla, Glo, Hp1. cbn [bind]. fold nS in EU. fold pvec in EU. rewrite EU. cbn [bind]. rewrite zlen_map.
  split; [intros ->; reflexivity|]. intros NE.
  assert (Hn : 0 < zlen U) by (destruct U as [|u U']; [congruence|]; rewrite zlen_cons; pose proof (zlen_nonneg U'); lia).
  split; [exact Hn|]. replace (zlen U =? 0) with false by lia. rewrite !map_map. cbn [fst snd]. rewrite map_id.
  rewrite (mapM_ok _ (vk pobs)) by (intros k Hk; apply vk_ok; specialize (RU k Hk); fold nS in RU; lia). cbn [bind].
  rewrite (mapM_ok _ gYv).
  2:{ intros k Hk. specialize (RU k Hk). fold nS in RU. unfold gY. rewrite znth_map, znth_zrange by lia. reflexivity. }
  cbn [bind]. rewrite mapM_map. rewrite (mapM_ok _ (fun k => map (vk (fst (gYv k))) ms)).
  2:{ intros k Hk. apply mapM_ok. intros e He. apply vk_ok. rewrite (proj2 (gYv_ok k (RU k Hk))). apply ms_range. exact He. }
  cbn [bind]. rewrite (mapM_ok _ (vk psigmas)) by (intros k Hk; apply vk_ok; specialize (RU k Hk); fold nS in RU; lia). cbn [bind]. rewrite map_map. reflexivity.
Qed.
Lemma lY_rect U : (forall k, In k U -> 0 <= k < nS) -> rect (zlen U) (zlen ms) (map (fun k => map (vk (fst (gYv k))) ms) U).
Proof. intros _. split; [apply zlen_map|]. intros r Hr. apply in_map_iff in Hr as (k & <- & _). apply zlen_map. Qed.

(** one row, whatever the values *)
Lemma cell_total y row p1 pos : znth background y = Ok row -> bpoint G t blas blos bpts y p1 pos ->
  exists U, chosen' mp p1 pos U /\
  ((exists out, cell y = Ok out /\ zlen out = nE /\ (forall e, ~ In e ms -> znth out e = znth (map v2r row) e) /\ (U = [] \/ ms = [] -> out = map v2r row)) \/
   (cell y = Throw RuntimeError /\ exists M, l_inv L M = Throw RuntimeError)).
Proof.
  intros Hrow Hp. destruct (cell_choice y row p1 pos Hrow Hp) as (U & HU & RU & U0 & U1). exists U. split; [exact HU|].
  assert (LR : zlen row = nE) by (apply RB; eapply znth_In; eauto).
  assert (C : U = [] \/ U <> []) by (destruct U; [left; reflexivity|right; discriminate]). destruct C as [C|C].
  { left. exists (map v2r row). split; [auto|]. rewrite zlen_map. auto. }
  destruct (U1 C) as [Hn Ec]. rewrite Ec.
  destruct (core_total L EL ms ex (zlen U) nE (map (fun k => bg p1 (ptk pts k)) U) (map (vk psigmas) U) (map (vk pobs) U) (map (fun k => snd (gYv k)) U)
     (map (fun k => map (vk (fst (gYv k))) ms) U) row HLib HEL Hn ms_nodup ms_range LR) as [(out & Eo & O1 & O2)|O]; try apply zlen_map.
  - apply lY_rect. exact RU.
  - left. exists out. split; [exact Eo|]. split; [exact O1|]. split; [exact O2|]. intros [X|X]; [congruence|].
    rewrite X in Eo. unfold core in Eo. change (zlen (@nil Z)) with 0 in Eo. cbn [Z.eqb] in Eo. congruence.
  - right. exact O.
Qed.

(** *** finite data *)
Variables (b : Z -> Z -> Qc) (s o : Z -> Qc).
Hypothesis HD : ensi_data nS nE background pobs psigmas pbg b s o.
Lemma gYv_data k : ms <> [] -> 0 <= k < nS -> snd (gYv k) = Fin (avg ms (b k)) /\ forall e, In e ms -> znth (fst (gYv k)) e = Ok (Fin (dev ms (b k) e)).
Proof.
  intros NE Hk. pose proof (nE_pos ltac:(lia)) as Hn. destruct RG as [R1 R2]. destruct (znth_some pbg k ltac:(lia)) as [r Er].
  assert (G2 : forall e, get2 pbg k e = znth r e) by (intros e; unfold get2; rewrite Er; reflexivity).
  destruct (perturb_ok E nE (ok_in background) (b k) r Hn (R2 _ (znth_In _ _ _ Er)) NE) as (r' & E1 & E2 & E3).
  - intros e He Hp. rewrite <- G2. apply (ed_in _ _ _ _ _ _ _ _ _ HD); auto. apply complete_ok. exact Hp.
  - intros e He Hp. destruct (ed_out _ _ _ _ _ _ _ _ _ HD k e Hk He) as (v & Ev & Hv); [rewrite complete_ok; congruence|]. exists v. rewrite <- G2. auto.
  - unfold gYv. rewrite Er. cbn [bind]. rewrite E1. auto.
Qed.

Lemma cell_data y row p1 pos g x : znth background y = Ok row -> bpoint G t blas blos bpts y p1 pos -> known_cell pts bg p1 g -> row_data nE background y x ->
  exists U, chosen' mp p1 pos U /\ (forall k, In k U -> 0 <= k < nS) /\
    (U = [] \/ zlen ms <= 1 -> cell y = Ok (map v2r row)) /\
    (U <> [] -> 2 <= zlen ms ->
      (solver_failed EL ms (precision U ms b s g) /\ cell y = Ok (map v2r row)) \/
      exists a, kalman_update U ms x b o s g a /\ exists out, cell y = Ok out /\ zlen out = nE /\ (forall e, ~ In e ms -> znth out e = znth (map v2r row) e) /\
        forall e, In e ms -> exists z, znth out e = Ok (RF z) /\ (ex = true -> z = a e) /\
          (ex = false -> forall k, U = [k] -> rlimited (qr (o k - b k e)%Qc) (a e - qr (x e)) (z - qr (x e)))).
Proof.
  intros Hrow Hp KC RX. destruct (cell_choice y row p1 pos Hrow Hp) as (U & HU & RU & U0 & U1). exists U. split; [exact HU|]. split; [exact RU|].
  assert (LR : zlen row = nE) by (apply RB; eapply znth_In; eauto).
  assert (UK : forall k, In k U -> exists pk v, points_get pts k = Ok pk /\ znth pobs k = Ok (Fin v) /\ (0 < g k)%Qc).
  { intros k Hk. destruct HU as (_ & HU & _). destruct (HU k Hk) as (q & pk & v & bk & _ & _ & Hg & Hv & _ & Hpos). exists pk, v. split; [exact Hg|]. split; [exact Hv|].
    rewrite (KC k pk Hg) in Hpos. rewrite fz0 in Hpos. cbn [vltb] in Hpos. destruct (qltb_spec 0 (g k)); [assumption|discriminate]. }
  assert (Hg : forall k, In k U -> (0 < g k)%Qc) by (intros k Hk; destruct (UK k Hk) as (? & ? & _ & _ & H); exact H).
  assert (Hs : forall k, In k U -> s k <> 0%Qc) by (intros k Hk; apply (ed_sig _ _ _ _ _ _ _ _ _ HD); apply RU; exact Hk).
  assert (Fg : forall i, 0 <= i < zlen U -> znth (map (fun k => bg p1 (ptk pts k)) U) i = Ok (Fin (g (ix U i))) /\ (0 < g (ix U i))%Qc).
  { intros i Hi. pose proof (ix_In U i Hi) as HIn. split; [|apply Hg; exact HIn]. rewrite znth_map_ix by exact Hi. f_equal.
    apply KC. destruct (UK _ HIn) as (pk & _ & Hpk & _). unfold ptk. rewrite Hpk. reflexivity. }
  assert (Fs : forall i, 0 <= i < zlen U -> znth (map (vk psigmas) U) i = Ok (Fin (s (ix U i))) /\ s (ix U i) <> 0%Qc).
  { intros i Hi. pose proof (ix_In U i Hi) as HIn. split; [|apply Hs; exact HIn]. rewrite znth_map_ix by exact Hi. f_equal.
    unfold vk. rewrite (proj1 (ed_sig _ _ _ _ _ _ _ _ _ HD _ (RU _ HIn))). reflexivity. }
  assert (Fo : forall i, 0 <= i < zlen U -> znth (map (vk pobs) U) i = Ok (Fin (o (ix U i)))).
  { intros i Hi. pose proof (ix_In U i Hi) as HIn. rewrite znth_map_ix by exact Hi. f_equal. destruct (UK _ HIn) as (_ & v & _ & Hv & _). unfold vk. rewrite Hv.
    rewrite (ed_obs _ _ _ _ _ _ _ _ _ HD _ _ Hv). reflexivity. }
  assert (Fx : forall i, 0 <= i < zlen ms -> znth row (ix ms i) = Ok (Fin (x (ix ms i)))).
  { intros i Hi. pose proof (ix_In ms i Hi) as HIn. pose proof HIn as H. apply filter_In in H as [H1 H2]. apply in_zrange in H1.
    specialize (RX _ H1 ltac:(apply complete_ok; exact H2)). unfold get2 in RX. rewrite Hrow in RX. exact RX. }
  assert (FY : ms <> [] -> mat (zlen U) (zlen ms) (map (fun k => map (vk (fst (gYv k))) ms) U) (fun i e => Yd ms b (ix U i) e)).
  { intros NE. split; [apply lY_rect; exact RU|]. intros i e Hi He. unfold get2. rewrite znth_map_ix by exact Hi. cbn [bind]. rewrite znth_map_ix by exact He. f_equal.
    unfold vk. rewrite (proj2 (gYv_data _ NE (RU _ (ix_In U i Hi))) _ (ix_In ms e He)). reflexivity. }
  assert (CU : U = [] \/ U <> []) by (destruct U; [left; reflexivity|right; discriminate]).
  split.
  { intros C. destruct CU as [CU|CU]; [auto|]. destruct C as [C|C]; [congruence|]. destruct (U1 CU) as [Hn ->].
    destruct (Z.eq_dec (zlen ms) 0) as [E0|N0]; [unfold core; rewrite E0; reflexivity|]. assert (E1 : zlen ms = 1) by (pose proof (zlen_nonneg ms); lia).
    assert (NE : ms <> []) by (intros X; rewrite X in E1; discriminate).
    apply (core_one L EL ms ex (zlen U) _ _ _ _ _ row (fun i => g (ix U i)) (fun i => s (ix U i)) HEL); try assumption; try lia.
    - intros i Hi. apply Fg. exact Hi.
    - rewrite <- E1. eapply mat_ext; [exact (FY NE)|]. intros i j Hi Hj. cbn beta. unfold Yd, dev, avg. rewrite E1 in *. assert (j = 0) as -> by lia.
      destruct ms as [|e0 [|e1 ms']] eqn:Em; [discriminate| |unfold zlen in E1; cbn in E1; lia]. unfold ix, tot. cbn [nth map fold_right Z.to_nat]. change (qz 1) with 1%Qc. field. discriminate. }
  intros NU H2. destruct (U1 NU) as [Hn Ec].
  assert (NE : ms <> []) by (intros X; rewrite X in H2; unfold zlen in H2; cbn in H2; lia).
  pose proof (core_fin L EL ms ex (zlen U) nE (map (fun k => bg p1 (ptk pts k)) U) (map (vk psigmas) U) (map (vk pobs) U) (map (fun k => snd (gYv k)) U)
     (map (fun k => map (vk (fst (gYv k))) ms) U) row HLib HEL Hn ms_nodup ms_range LR U (Yd ms b) g s o (fun k => avg ms (b k)) (fun i => x (ix ms i)) eq_refl H2 Fg Fs Fo) as CF.
  rewrite <- Ec in CF. destruct CF as [(M & A & EA & IA & EE & Er)|(P & l & v & HSol & out & Er & L1 & L2 & L3)].
  { intros i Hi. rewrite znth_map_ix by exact Hi. f_equal. apply gYv_data; [exact NE|]. apply RU, ix_In. exact Hi. }
  { exact (FY NE). } { exact Fx. }
  - left. split; [|exact Er]. destruct (positions ms ms_nodup) as (p & P1 & P2). exists M, (fun e f => A (p e) (p f)).
    split; [apply EA|]. split; [|split; [|exact EE]].
    + intros i j e f Hi Hj. pose proof (znth_range _ _ _ Hi) as Ri. pose proof (znth_range _ _ _ Hj) as Rj. rewrite (proj2 EA) by assumption.
      assert (e = ix ms i) as -> by (rewrite (ix_ok ms i Ri) in Hi; congruence). assert (f = ix ms j) as -> by (rewrite (ix_ok ms j Rj) in Hj; congruence).
      rewrite !P1 by assumption. reflexivity.
    + intros e f He Hf. destruct (P2 e He) as [He1 He2]. destruct (P2 f Hf) as [Hf1 Hf2].
      assert (Eu : forall i j, 0 <= i < zlen ms -> 0 <= j < zlen ms -> unit_ (ix ms i) (ix ms j) = unit_ i j).
      { intros i j Hi Hj. unfold unit_. destruct (Z.eqb_spec i j) as [-> |N]; [rewrite Z.eqb_refl; reflexivity|]. destruct (Z.eqb_spec (ix ms i) (ix ms j)) as [X|_]; [|reflexivity].
        exfalso. apply N. exact (ix_inj ms i j ms_nodup Hi Hj X). }
      transitivity (unit_ (p e) (p f)). 2:{ rewrite <- Eu by assumption. rewrite He2, Hf2. reflexivity. } rewrite <- (IA (p e) (p f)) by (apply in_zrange; assumption).
      rewrite (tot_ix ms). apply tot_ext. intros i Hi. pose proof Hi as Hi'. apply in_zrange in Hi. rewrite P1 by exact Hi. f_equal.
      replace (precision U ms b s g (ix ms i) f) with (precision U ms b s g (ix ms i) (ix ms (p f))) by (rewrite Hf2; reflexivity). unfold precision. rewrite Eu by assumption. unfold pinv.
      rewrite (tot_ext U (fun k => dev ms (b k) (ix ms i) * dev ms (b k) (ix ms (p f)) * g k / (s k * s k))%Qc (fun k => Yd ms b k i * rin g s k * Yd ms b k (p f))%Qc) by (intros; unfold Yd, rin, Qcdiv; ring).
      field. apply qz_neq0. lia.
  - right. destruct (positions ms ms_nodup) as (p & P1 & P2).
    set (a := fun e => mem (zlen ms) U (Yd ms b) (rin g s) P l v (fun i => dev ms x (ix ms i)) (avg ms x) (fun k => o k - avg ms (b k))%Qc (p e)).
    assert (Ha : forall e, 0 <= e < zlen ms -> a (ix ms e) = mem (zlen ms) U (Yd ms b) (rin g s) P l v (fun i => dev ms x (ix ms i)) (avg ms x) (fun k => o k - avg ms (b k))%Qc e).
    { intros e He. unfold a. rewrite P1 by exact He. reflexivity. }
    assert (NDU : NoDup U) by apply HU.
    exists a. split.
    { exists (mval ms U b s g o x P), (vval ms x P), (fun e f => root (zlen ms) v l (p e) (p f)).
      split; [exact (mean_ok ms U b s g o x NDU H2 Hg Hs P l v HSol)|]. split; [exact (var_ok ms U b s g x NDU H2 Hg Hs P l v HSol)|].
      split; [exact (trans_ok ms U b s g ms_nodup H2 Hg Hs P l v HSol p P1)|]. split; [exact (a_mean ms U b s g o x H2 Hg Hs P l v HSol a Ha)|].
      split; [exact (a_var ms U b s g o x H2 Hg Hs P l v HSol a Ha)|]. split; [exact (var_range ms U b s g x H2 Hg Hs P l v HSol)|].
      intros e He. exact (a_member ms U b s g o x H2 Hg Hs P l v HSol a Ha p e P1 He). }
    exists out. split; [exact Er|]. split; [exact L1|]. split; [exact L2|]. intros e He. destruct (P2 e He) as [Rp Ep]. destruct (L3 (p e) Rp) as (z & Ez & Z1 & Z2). rewrite Ep in Ez.
    assert (Exb : xb ms (fun i => x (ix ms i)) = avg ms x) by (unfold xb, avg; rewrite (tot_ix ms x); reflexivity).
    assert (Ea : a e = (qr (avg ms x) + incr ms U (Yd ms b) g s o (fun k => avg ms (b k)) (fun i => x (ix ms i)) P l v (p e))%R).
    { unfold a, mem, incr, xd. rewrite Exb. reflexivity. }
    exists (qr (avg ms x) + z)%R. rewrite Exb in Ez. split; [exact Ez|]. split; [intros X; rewrite (Z1 X), Ea; reflexivity|].
    intros X k EU. specialize (Z2 X). rewrite EU in Z2. change (zlen [k]) with 1 in Z2. unfold stdep in Z2. rewrite Z.mod_1_r, Z.div_1_r in Z2. cbn [map] in Z2.
    change (ix [k] 0) with k in Z2. replace (Yd ms b k (p e)) with (dev ms (b k) e) in Z2 by (unfold Yd; rewrite Ep; reflexivity).
    replace (o k - (dev ms (b k) e + avg ms (b k)))%Qc with (o k - b k e)%Qc in Z2 by (unfold dev; ring).
    assert (Exd : xd ms (fun i => x (ix ms i)) (p e) = dev ms x e) by (unfold xd, dev; rewrite Exb, Ep; reflexivity).
    rewrite Exd in Z2. rewrite EU in Ea. cbn [amax amin fold_left v2r] in Z2.
    replace (RF (incr ms [k] (Yd ms b) g s o (fun k : Z => avg ms (b k)) (fun i : Z => x (ix ms i)) P l v (p e))) with (RF ((a e - qr (x e)) + qr (dev ms x e))) in Z2.
    2:{ f_equal. rewrite Ea. unfold dev. rewrite qr_sub. ring. }
    apply limit_one in Z2. replace (qr (avg ms x) + z - qr (x e))%R with (z - qr (dev ms x e))%R by (unfold dev; rewrite qr_sub; ring). exact Z2.
Qed.
End All.
