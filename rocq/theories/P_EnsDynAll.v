(** The ensemble analysis with correlations from the ensemble: all points. *)
From Coq Require Import Lra.
From Verif Require Import Base QcTac ListLib RBase P_RBase M_Geo S_Geo S_Near M_Stat M_OI S_OI P_Geo P_OISum P_OI P_OISolve P_OICell P_OIAll P_OITotal M_EnsMulti M_Ensi M_EnsDyn P_EnsSel P_EnsMulti S_EnsMulti S_Ensi S_EnsDyn P_RSum P_EnsiCell P_EnsiFin P_EnsDyn P_EnsDynCell.
Local Open Scope Z_scope.

Lemma complete_values n nE m f : rect n nE f -> 0 <= m <= nE -> (forall e, 0 <= e < m -> complete e f) ->
  exists b, members_at n m f b.
Proof.
  intros R Hm H. exists (fun k e => match get2 f k e with Ok (Fin q) => q | _ => 0%Qc end). intros k e Hk He.
  destruct (rect_get2 _ _ f k e R Hk ltac:(lia)) as [v Hv]. destruct (H e He v) as [q ->]; [|rewrite Hv; reflexivity].
  eapply znth_In. rewrite (znth_col e n nE f k R) by lia. exact Hv.
Qed.
Lemma get2_map_map {A B} (f : A -> B) (l : list (list A)) y e : get2 (map (map f) l) y e = (v <- get2 l y e ;; Ok (f v)).
Proof. unfold get2. rewrite znth_map. destruct (znth l y); cbn [bind]; try reflexivity. rewrite znth_map. reflexivity. Qed.
Lemma rect_map_map {A B} (f : A -> B) n k (l : list (list A)) : rect n k l -> rect n k (map (map f) l).
Proof. intros [H1 H2]. split; [rewrite zlen_map; exact H1|]. intros r Hr. apply in_map_iff in Hr as (r' & <- & Hr'). rewrite zlen_map. auto. Qed.

Section All.
Variables (E : ext) (G : geo) (L : lib) (RL : rlib) (S : sfn) (t : ctype) (blas blos las los : list Qc) (bpts pts : points)
  (bratios : vec) (background background_corr pobs pbg pbg_corr : vec2) (pratios : vec) (mp : Z) (ex : bool)
  (loc : point -> val) (rho bg : point -> point -> val) (nE m : Z).
Hypothesis HSet : setting G L S t blas blos bpts las los pts loc rho bg.
Let HG := set_geo _ _ _ _ _ _ _ _ _ _ _ _ _ HSet.
Let HLib := set_lib _ _ _ _ _ _ _ _ _ _ _ _ _ HSet.
Let HS := set_sf _ _ _ _ _ _ _ _ _ _ _ _ _ HSet.
Let HB := set_bpts _ _ _ _ _ _ _ _ _ _ _ _ _ HSet.
Let HP := set_pts _ _ _ _ _ _ _ _ _ _ _ _ _ HSet.
Hypothesis HR : rlib_ok RL.
Let nB := zlen blas.
Let nS := zlen las.
Let pvec := map (ptk pts) (zrange 0 nS).
Hypothesis HI : dyn_input nB nS nE m bratios background background_corr pobs pratios pbg pbg_corr.
Hypothesis Hmp : 0 <= mp.
Let Hm := dn_m _ _ _ _ _ _ _ _ _ _ _ HI.
Let RB := dn_bg _ _ _ _ _ _ _ _ _ _ _ HI.
Let RC := dn_bgc _ _ _ _ _ _ _ _ _ _ _ HI.
Let RO := dn_obs _ _ _ _ _ _ _ _ _ _ _ HI.
Let RG := dn_pbg _ _ _ _ _ _ _ _ _ _ _ HI.
Let RGC := dn_pbgc _ _ _ _ _ _ _ _ _ _ _ HI.
Let LBR := dn_br _ _ _ _ _ _ _ _ _ _ _ HI.
Let LPR := dn_pr _ _ _ _ _ _ _ _ _ _ _ HI.
Let Vok := dn_ok _ _ _ _ _ _ _ _ _ _ _ HI.
Let Vno := dn_no _ _ _ _ _ _ _ _ _ _ _ HI.
Notation ms := (zrange 0 m).
Notation run := (ebe E G L RL S bpts bratios background background_corr pts pobs pratios pbg pbg_corr mp ex).
Notation cell gZ := (ebe_cell E G L RL S bpts bratios background background_corr pts pvec pobs pratios pbg gZ mp ex ms).
Notation chosen' := (chosen G t las los pts (col 0 pobs) (col 0 pobs) loc bg).

Lemma dmembers_prefix : members nE [background; background_corr; pbg; pbg_corr] = Ok ms.
Proof.
  rewrite members_all.
  2:{ intros f [<- |[<- |[<- |[<- |[]]]]]; eauto. }
  f_equal. apply filter_prefix; [lia| |].
  - intros e He. destruct (Vok e He) as (H1 & H2 & H3 & H4). apply complete_ok in H1, H2, H3, H4. cbn [forallb]. rewrite H1, H2, H3, H4. reflexivity.
  - intros e He. cbn [forallb]. destruct (ok_in background e) eqn:E1, (ok_in background_corr e) eqn:E2, (ok_in pbg e) eqn:E3, (ok_in pbg_corr e) eqn:E4; try reflexivity.
    exfalso. apply (Vno e He). repeat split; apply complete_ok; assumption.
Qed.
Lemma drun_eq : run = if nS =? 0 then Ok (map (map v2r) background) else
  (r0 <- znth background 0 ;; if m =? 0 then Ok (map (map v2r) background) else
   gZ <- station_norms E nB nS ms pbg_corr ;; mapM (cell gZ) (zrange 0 nB)).
Proof.
  unfold ebe. replace (mp <? 0) with false by lia. rewrite (at_type _ _ _ _ _ HB), (at_type _ _ _ _ _ HP), (at_size _ _ _ _ _ HB), (at_size _ _ _ _ _ HP).
  fold (ctype_eqb t t). replace (ctype_eqb t t) with true by (symmetry; apply ctype_eqb_spec; reflexivity). cbn [negb].
  destruct RB as [LB RB2], RO as [LO _], RG as [LG _], RC as [LC _], RGC as [LGC _]. rewrite LB, LC, LBR, LO, LPR, LG, LGC. fold nB nS. rewrite !Z.eqb_refl. cbn [negb].
  destruct (nS =? 0); [reflexivity|].
  destruct (znth background 0) as [r0| | |] eqn:E0; cbn [bind]; try reflexivity.
  unfold nS at 1. rewrite (pvec_ok _ _ _ _ _ HP). cbn [bind]. rewrite (RB2 _ (znth_In _ _ _ E0)). rewrite dmembers_prefix. cbn [bind]. rewrite zlen_zrange.
  replace (Z.max 0 (m - 0)) with m by lia. reflexivity.
Qed.
Lemma rows_kept : zlen las = 0 \/ m = 0 -> (blas <> [] \/ las = []) -> run = Ok (map (map v2r) background).
Proof.
  intros C D. rewrite drun_eq. destruct (Z.eqb_spec nS 0) as [E0|N0]; [reflexivity|]. destruct C as [C|C]; [contradiction|].
  destruct (znth_some background 0) as [r0 Hr0].
  { destruct RB as [-> _]. unfold nB. destruct D as [D|D]; [|subst las; elim N0; reflexivity]. destruct blas as [|q l0]; [congruence|]. rewrite zlen_cons. pose proof (zlen_nonneg l0). lia. }
  rewrite Hr0. cbn [bind]. replace (m =? 0) with true by lia. reflexivity.
Qed.

(** the interesting case *)
Section Main.
Variables (b xc : Z -> Z -> Qc).
Hypothesis Hb : members_at nS m pbg_corr b.
Hypothesis Hx : members_at nB m background_corr xc.
Hypothesis Hn : 0 < nS.
Hypothesis Hm0 : 0 < m.
Lemma drun_cell out y row s p1 pos : run = Ok out -> znth background y = Ok row -> znth bratios y = Ok s -> bpoint G t blas blos bpts y p1 pos ->
  exists U orow, chosen' mp p1 pos U /\ (forall k, In k U -> 0 <= k < nS) /\ NoDup U /\ znth out y = Ok orow /\ zlen orow = nE /\
    (forall e, m <= e -> znth orow e = znth (map v2r row) e) /\
    (U = [] -> orow = map v2r row) /\
    (U <> [] -> exists N, r_inv RL (sysm pts pratios rho m b U) = Ok N /\
       forall e, 0 <= e < m -> znth orow e = Ok (radd (v2r (vk row e)) (finv pts pobs pbg ex bg m b xc y p1 s U N e))).
Proof.
  intros H Hrow Hs Hp. destruct (bpoint_at _ _ _ _ _ _ _ _ Hp) as (la & lo & Hla & Hlo & -> & Hp1).
  rewrite drun_eq in H. replace (nS =? 0) with false in H by lia. apply bind_Ok in H as (r0 & Hr0 & H). replace (m =? 0) with false in H by lia.
  apply bind_Ok in H as (gZ & HgZ & H).
  destruct (station_norms_ok E nB nS nE m pbg_corr b (zlen_nonneg _) ltac:(lia) RGC Hb) as [SN1 SN2].
  destruct (Z_lt_dec nB nS) as [Lt|Ge]; [rewrite SN2 in HgZ by exact Lt; discriminate|]. destruct (SN1 ltac:(lia)) as (gZ' & EZ & HZ). assert (gZ' = gZ) as -> by congruence.
  destruct (cell_choice E G L RL S t blas blos las los bpts pts bratios background background_corr pobs pbg pratios mp ex loc rho bg nE m b xc gZ HG HLib HR HS HB HP) with (y := y) (la := la) (lo := lo) (p1 := p1) (row := row) (s := s)
    as (U & HU & RU & ND & U0 & U1); auto; try lia.
  apply mapM_inv in H as [Lo HC]. pose proof (znth_range _ _ _ Hla) as Ry. fold nB in Ry. destruct (HC y y) as (orow & Eo & Ec); [rewrite znth_zrange by lia; reflexivity|].
  exists U, orow. split; [exact HU|]. split; [exact RU|]. split; [exact ND|]. split; [exact Eo|].
  fold nS in U0, U1. fold pvec in U0, U1.
  assert (C : U = [] \/ U <> []) by (destruct U; [left; reflexivity|right; discriminate]). destruct C as [EU|NE].
  - rewrite (U0 EU) in Ec. injection Ec as <-. split; [rewrite zlen_map; apply RB; eapply znth_In; eauto|]. split; [reflexivity|]. split; [reflexivity|congruence].
  - destruct (U1 NE) as [(N & o' & EN & _ & Eo' & L1 & L2 & L3)|[Et _]]; [|congruence]. assert (o' = orow) as -> by congruence.
    split; [exact L1|]. split; [exact L2|]. split; [congruence|]. intros _. exists N. auto.
Qed.
Lemma dtotal : nS <= nB ->
  (exists out, run = Ok out) \/
  (run = Throw RuntimeError /\ exists U, NoDup U /\ U <> [] /\ (forall k, In k U -> 0 <= k < nS) /\ r_inv RL (sysm pts pratios rho m b U) = Throw RuntimeError).
Proof.
  intros Hle. rewrite drun_eq. replace (nS =? 0) with false by lia. destruct (znth_some background 0) as [r0 Hr0]; [destruct RB; lia|]. rewrite Hr0. cbn [bind].
  replace (m =? 0) with false by lia.
  destruct (station_norms_ok E nB nS nE m pbg_corr b (zlen_nonneg _) ltac:(lia) RGC Hb) as [SN1 _]. destruct (SN1 Hle) as (gZ & EZ & HZ). rewrite EZ. cbn [bind].
  assert (T : forall y, 0 <= y < nB -> (exists o, cell gZ y = Ok o) \/
     (cell gZ y = Throw RuntimeError /\ exists U, NoDup U /\ U <> [] /\ (forall k, In k U -> 0 <= k < nS) /\ r_inv RL (sysm pts pratios rho m b U) = Throw RuntimeError)).
  { intros y Hy. destruct (has_bpoint G t blas blos bpts HB y Hy) as (p1 & pos & Hp). destruct (bpoint_at _ _ _ _ _ _ _ _ Hp) as (la & lo & Hla & Hlo & -> & Hp1).
    destruct (znth_some background y) as [row Hrow]; [destruct RB; lia|]. destruct (znth_some bratios y ltac:(lia)) as [s Hs].
    destruct (cell_choice E G L RL S t blas blos las los bpts pts bratios background background_corr pobs pbg pratios mp ex loc rho bg nE m b xc gZ HG HLib HR HS HB HP) with (y := y) (la := la) (lo := lo) (p1 := p1) (row := row) (s := s)
      as (U & HU & RU & ND & U0 & U1); auto; try lia. fold nS in U0, U1. fold pvec in U0, U1.
    assert (C2 : U = [] \/ U <> []) by (destruct U; [left; reflexivity|right; discriminate]). destruct C2 as [EU|NE]; [left; eauto|].
    destruct (U1 NE) as [(N & o' & _ & _ & Eo' & _)|[Et EI]]; [left; eauto|]. right. split; [exact Et|]. exists U. auto. }
  destruct (mapM_throw (cell gZ) RuntimeError (zrange 0 nB)) as [[bs EM]|[EM (y & Hy & Ey)]].
  - intros y Hy. apply in_zrange in Hy. destruct (T y Hy) as [HH|[HH _]]; auto.
  - rewrite EM. left. eauto.
  - right. split; [exact EM|]. apply in_zrange in Hy. destruct (T y Hy) as [[o Ho]|[_ HH]]; [congruence|exact HH].
Qed.
End Main.

Lemma drun_rect out : run = Ok out -> rect nB nE out.
Proof.
  intros H. pose proof H as H0. rewrite drun_eq in H. destruct (nS =? 0) eqn:E0; [injection H as <-; apply rect_map_map; exact RB|]. apply bind_Ok in H as (r0 & Hr0 & H).
  destruct (m =? 0) eqn:E1; [injection H as <-; apply rect_map_map; exact RB|]. apply bind_Ok in H as (gZ & _ & H). apply mapM_inv in H as [Lo _]. rewrite zlen_zrange in Lo.
  pose proof (zlen_nonneg blas). split; [unfold nB in *; lia|].
  intros r Hr. apply In_znth in Hr as [y Hy]. pose proof (znth_range _ _ _ Hy) as Ry. pose proof (zlen_nonneg las).
  destruct (znth_some background y) as [row Hrow]; [destruct RB; unfold nB in *; lia|]. destruct (znth_some bratios y) as [s Hs]; [unfold nB in *; lia|].
  destruct (has_bpoint G t blas blos bpts HB y) as (p1 & pos & Hp); [unfold nB in *; lia|].
  destruct (complete_values _ _ m _ RGC Hm) as [b Hb]; [intros e He; apply Vok; exact He|].
  destruct (complete_values _ _ m _ RC Hm) as [xc Hx]; [intros e He; apply Vok; exact He|].
  destruct (drun_cell b xc Hb Hx) with (out := out) (y := y) (row := row) (s := s) (p1 := p1) (pos := pos) as (U & orow & _ & _ & _ & Eo & Eo1 & _); auto; try (unfold nS in *; lia). congruence.
Qed.

(** C119 *)
Lemma c119_sec : forall out r ratio b, run = Ok out -> known_ratios pts nS rho pratios r ratio ->
  (forall k o e, get2 pobs k 0 = Ok (Fin o) -> 0 <= e < m -> exists o', get2 pobs k e = Ok (Fin o')) ->
  members_at nS m pbg_corr b ->
  rect nB nE out /\
  (forall y e v, m <= e < nE -> get2 background y e = Ok v -> get2 out y e = Ok (v2r v)) /\
  (forall y s p1 pos g x, znth bratios y = Ok (Fin s) -> bpoint G t blas blos bpts y p1 pos -> known_cell pts bg p1 g ->
     (forall e, 0 <= e < m -> get2 background_corr y e = Ok (Fin (x e))) ->
     exists U, chosen' mp p1 pos U /\ forall e v d, 0 <= e < m -> get2 background y e = Ok (Fin v) ->
       departures (col e pobs) (col e pbg) d ->
       exists o, get2 out y e = Ok o /\ dynamic_analysis (IZR m / IZR (m - 1)) ms U x b r ratio g d s ex v o).
Proof.
  intros out r ratio b H [KR KV] KO Hb. pose proof (drun_rect _ H) as RR. split; [exact RR|].
  assert (Triv : nS = 0 \/ m = 0 -> out = map (map v2r) background).
  { intros C. rewrite drun_eq in H. destruct (nS =? 0) eqn:E0; [congruence|]. apply bind_Ok in H as (r0 & _ & H). replace (m =? 0) with true in H by lia. congruence. }
  assert (Dec : nS = 0 \/ m = 0 \/ (0 < nS /\ 0 < m)) by (pose proof (zlen_nonneg las); unfold nS; lia).
  destruct (complete_values _ _ m _ RC Hm) as [xc Hx]; [intros e He; apply Vok; exact He|].
  split.
  - intros y e v He Hv. destruct Dec as [C|[C|[Hn Hm0]]]; [rewrite Triv by auto; rewrite get2_map_map, Hv; reflexivity|rewrite Triv by auto; rewrite get2_map_map, Hv; reflexivity|].
    unfold get2 in Hv. apply bind_Ok in Hv as (row & Hrow & Hv). pose proof (znth_range _ _ _ Hrow) as Ry.
    destruct (znth_some bratios y) as [s Hs]; [destruct RB; lia|].
    destruct (has_bpoint G t blas blos bpts HB y) as (p1 & pos & Hp); [destruct RB; unfold nB in *; lia|].
    destruct (drun_cell b xc Hb Hx) with (out := out) (y := y) (row := row) (s := s) (p1 := p1) (pos := pos) as (U & orow & _ & _ & _ & Eo & _ & E2 & _); auto.
    unfold get2. rewrite Eo. cbn [bind]. rewrite E2 by lia. rewrite znth_map, Hv. reflexivity.
  - intros y s p1 pos g x Hs Hp KC Kx. destruct Dec as [C|[C|[Hn Hm0]]].
    { exists []. split.
      - split; [constructor|]. split; [intros k []|]. split; [intros; rewrite zlen_nil; lia|]. split; [|intros k k' []].
        intros _ k (q & pk & o & b' & Hq & _). apply point_at_range in Hq. unfold nS in C. lia.
      - intros e v d He Hv _. exists (RF (qr v)). rewrite Triv by auto. rewrite get2_map_map, Hv. split; [reflexivity|].
        exists (fun _ _ => 0%R), (fun _ => 0%R). split; [intros k j []|]. split; [intros k []|]. split; congruence. }
    { destruct (select_ok G L S t blas blos las los bpts pts (fun k => Ok (vk (col 0 pobs) k)) (col 0 pobs) mp loc rho bg HG HLib HS HB HP)
        with (y := y) (la := match znth blas y with Ok q => q | _ => 0%Qc end) (lo := match znth blos y with Ok q => q | _ => 0%Qc end) (p1 := p1) as (U & HU & _); auto.
      - rewrite zlen_col. apply RO.
      - destruct (bpoint_at _ _ _ _ _ _ _ _ Hp) as (la & lo & -> & _ & _). reflexivity.
      - destruct (bpoint_at _ _ _ _ _ _ _ _ Hp) as (la & lo & _ & -> & _). reflexivity.
      - apply Hp.
      - exists U. split; [|intros; lia]. destruct (bpoint_at _ _ _ _ _ _ _ _ Hp) as (la & lo & E1 & E2 & -> & _). rewrite E1, E2 in HU. exact HU. }
    destruct (bpoint_at _ _ _ _ _ _ _ _ Hp) as (la & lo & Hla & Hlo & Epos & Hp1). pose proof (znth_range _ _ _ Hla) as Ry.
    destruct (znth_some background y) as [row Hrow]; [destruct RB; unfold nB in *; lia|].
    assert (Hx' : members_at nB m background_corr (fun k e => if k =? y then x e else xc k e)).
    { intros k e Hk He. destruct (Z.eqb_spec k y) as [-> |N]; [auto|apply Hx; assumption]. }
    destruct (drun_cell b _ Hb Hx') with (out := out) (y := y) (row := row) (s := Fin s) (p1 := p1) (pos := pos) as (U & orow & HU & RU & ND & Eo & Lo & E2 & EU0 & EU1); auto.
    exists U. split; [exact HU|]. intros e v d He Hv KD. unfold get2 in Hv. rewrite Hrow in Hv. cbn [bind] in Hv.
    assert (C : U = [] \/ U <> []) by (destruct U; [left; reflexivity|right; discriminate]). destruct C as [EU|NE].
    { exists (RF (qr v)). unfold get2. rewrite Eo. cbn [bind]. rewrite (EU0 EU). rewrite znth_map, Hv. split; [reflexivity|]. subst U.
      exists (fun _ _ => 0%R), (fun _ => 0%R). split; [intros k j []|]. split; [intros k []|]. split; congruence. }
    destruct (EU1 NE) as (N & EN & Ev). unfold get2. rewrite Eo. cbn [bind]. rewrite Ev by exact He. eexists. split; [reflexivity|].
    unfold vk at 1. rewrite Hv. cbn [v2r].
    pose proof (finv_ok RL pts pobs pbg pratios ex rho bg m b (fun k e => if k =? y then x e else xc k e) HR Hm0 U r ratio g d y e p1 s ND NE) as FO. cbn beta in FO. rewrite Z.eqb_refl in FO.
    apply FO; auto.
    + intros k j Hk Hj. apply KR; eapply ptk_ok; eauto.
    + intros k Hk. unfold vk. rewrite KV by (apply RU; exact Hk). reflexivity.
    + intros k Hk. apply KC. eapply ptk_ok; eauto.
    + intros k Hk.
      assert (Ho : exists o, znth (col e pobs) k = Ok (Fin o)).
      { destruct HU as (_ & Hus & _). destruct (Hus k Hk) as (q & pk & o' & b' & _ & _ & _ & Ho & _).
        rewrite (znth_col 0 _ _ _ k RO) in Ho by (try lia; apply RU; exact Hk). destruct (KO k o' e Ho He) as [o2 Ho2].
        rewrite <- (znth_col e _ _ _ k RO) in Ho2 by (try lia; apply RU; exact Hk). eauto. }
      destruct Ho as [o Ho].
      destruct (znth_some (col e pbg) k) as [vv Hvv]; [rewrite zlen_col; destruct RG as [-> _]; apply RU; exact Hk|].
      destruct (Vok e He) as (_ & _ & Cg & _). destruct (Cg vv) as [q ->]; [eapply znth_In; eauto|].
      unfold vk. rewrite Ho, Hvv. rewrite (KD k o q Ho Hvv). reflexivity.
Qed.
(** C120 *)
Lemma c120_sec : (blas <> [] \/ las = []) -> nS <= nB ->
  ((exists out, run = Ok out) \/ (run = Throw RuntimeError /\ exists M, r_inv RL M = Throw RuntimeError)) /\
  (forall r ratio, known_ratios pts nS rho pratios r ratio ->
     (forall U c, NoDup U -> (forall k, In k U -> 0 <= k < nS) -> (0 <= rtot U (fun k => rtot U (fun j => c k * c j * qr (r k j))))%R) ->
     (forall k, 0 <= k < nS -> (0 < ratio k)%Qc) -> exists out, run = Ok out).
Proof.
  intros D Hle.
  assert (Dec : (nS = 0 \/ m = 0) \/ (0 < nS /\ 0 < m)) by (pose proof (zlen_nonneg las); unfold nS; lia).
  destruct Dec as [C|[Hn Hm0]]; [pose proof (rows_kept C D) as H; split; eauto|].
  destruct (complete_values _ _ m _ RGC Hm) as [b Hb]; [intros e He; apply Vok; exact He|].
  destruct (complete_values _ _ m _ RC Hm) as [xc Hx]; [intros e He; apply Vok; exact He|].
  destruct (dtotal b xc Hb Hx Hn Hm0 Hle) as [H|[H (U & ND & NE & RU & EI)]]; [split; eauto|]. split; [eauto|].
  intros r ratio [KR KV] PSD HPos. exfalso.
  refine (dyn_regular RL pts pratios rho m b HR U r ratio ND NE _ _ (fun c => PSD U c ND RU) _ _ EI).
  - intros k j Hk Hj. apply KR; eapply ptk_ok; eauto.
  - intros k Hk. unfold vk. rewrite KV by (apply RU; exact Hk). reflexivity.
  - intros k Hk. apply HPos. apply RU. exact Hk.
Qed.
(** more stations than background points *)
Lemma c120_ub : 0 < m -> blas <> [] -> nB < nS -> run = UB.
Proof.
  intros Hm0 D Hlt. rewrite drun_eq. pose proof (zlen_nonneg blas). replace (nS =? 0) with false by (unfold nB in *; lia).
  destruct (znth_some background 0) as [r0 Hr0].
  { destruct RB as [-> _]. unfold nB. destruct blas as [|q l0]; [congruence|]. rewrite zlen_cons. pose proof (zlen_nonneg l0). lia. }
  rewrite Hr0. cbn [bind]. replace (m =? 0) with false by lia.
  destruct (complete_values _ _ m _ RGC Hm) as [b Hb]; [intros e He; apply Vok; exact He|].
  destruct (station_norms_ok E nB nS nE m pbg_corr b (zlen_nonneg _) ltac:(lia) RGC Hb) as [_ SN2]. rewrite SN2 by exact Hlt. reflexivity.
Qed.
End All.
