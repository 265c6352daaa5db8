(** The ensemble analysis with correlations from the ensemble: one background point. *)
From Coq Require Import Lra.
From Verif Require Import Base QcTac ListLib RBase P_RBase M_Geo S_Geo S_Near M_Stat M_OI S_OI P_Geo P_OISum P_OI P_OISolve P_OICell P_OIAll P_OITotal M_EnsMulti M_Ensi M_EnsDyn P_EnsSel P_EnsMulti S_EnsMulti S_Ensi S_EnsDyn P_RSum P_EnsiCell P_EnsiFin P_EnsDyn.
Local Open Scope Z_scope.

Lemma rlimit0_ok x hi lo : (lo <= hi)%R -> exists z, rlimit0 (RF x) (RF hi) (RF lo) = RF z /\ rclipped lo hi x z.
Proof.
  intros H0. unfold rlimit0, rz, rltb, Rltb.
  destruct (Rlt_dec 0 hi), (Rlt_dec hi x), (Rlt_dec hi 0), (Rlt_dec 0 x), (Rlt_dec lo 0), (Rlt_dec x lo), (Rlt_dec 0 lo), (Rlt_dec x 0);
    cbn [andb]; eexists; (split; [reflexivity|]); unfold rclipped; repeat split; intros; try reflexivity; try lra.
Qed.
Lemma ix_zrange m e : 0 <= e < m -> ix (zrange 0 m) e = e.
Proof.
  intros He. assert (H : znth (zrange 0 m) e = Ok (ix (zrange 0 m) e)) by (apply ix_ok; rewrite zlen_zrange; lia).
  rewrite znth_zrange in H by lia. injection H as <-. lia.
Qed.

Section Cell.
Variables (E : ext) (G : geo) (L : lib) (RL : rlib) (S : sfn) (t : ctype) (blas blos las los : list Qc) (bpts pts : points)
  (bratios : vec) (background background_corr pobs pbg : vec2) (pratios : vec) (mp : Z) (ex : bool)
  (loc : point -> val) (rho bg : point -> point -> val) (nE m : Z) (b xc : Z -> Z -> Qc) (gZ : list (list rv)).
Hypothesis HG : geo_ok G.
Hypothesis HLib : lib_ok L.
Hypothesis HR : rlib_ok RL.
Hypothesis HS : behaves S loc rho bg.
Hypothesis HB : at_locations G t blas blos bpts.
Hypothesis HP : at_locations G t las los pts.
Let nS := zlen las.
Let pvec := map (ptk pts) (zrange 0 nS).
Hypothesis Hm : 0 < m <= nE.
Hypothesis RB : rect (zlen blas) nE background.
Hypothesis RC : rect (zlen blas) nE background_corr.
Hypothesis RO : rect nS nE pobs.
Hypothesis RG : rect nS nE pbg.
Hypothesis LBR : zlen bratios = zlen blas.
Hypothesis LPR : zlen pratios = nS.
Hypothesis Hmp : 0 <= mp.
Notation ms := (zrange 0 m).
Hypothesis HX : members_at (zlen blas) m background_corr xc.
Hypothesis HZ : forall k, 0 <= k < nS -> znth gZ k = Ok (map (fun e => RF (zsc ms (b k) e)) ms).
Notation cell := (ebe_cell E G L RL S bpts bratios background background_corr pts pvec pobs pratios pbg gZ mp ex ms).
Notation chosen' := (chosen G t las los pts (col 0 pobs) (col 0 pobs) loc bg).

Definition zz (k j : Z) : R := rtot ms (fun e => zsc ms (b k) e * zsc ms (b j) e)%R.
Definition zx (y k : Z) : R := rtot ms (fun e => zsc ms (xc y) e * zsc ms (b k) e)%R.
Definition sysv (U : list Z) (i j : Z) : rv :=
  radd (rmul (v2r (rho (ptk pts (ix U i)) (ptk pts (ix U j)))) (RF (zz (ix U i) (ix U j)))) (if i =? j then v2r (vk pratios (ix U i)) else rz 0).
Definition sysm (U : list Z) : list (list rv) := map (fun i => map (sysv U i) (zrange 0 (zlen U))) (zrange 0 (zlen U)).
Definition gv (y : Z) (p1 : point) (U : list Z) (i : Z) : rv := rmul (v2r (bg p1 (ptk pts (ix U i)))) (RF (zx y (ix U i))).
Definition rg (N : list (list rv)) (i j : Z) : rv := match get2 N i j with Ok v => v | _ => RNaN end.
Definition lkv (y : Z) (p1 : point) (U : list Z) (N : list (list rv)) (j : Z) : rv := rfold (zlen U) (fun i => rmul (gv y p1 U i) (rg N i j)).
Definition incv (y : Z) (p1 : point) (s : val) (U : list Z) (N : list (list rv)) (e : Z) : rv :=
  rmul (v2r s) (rfold (zlen U) (fun i => rmul (lkv y p1 U N i) (v2r (vsub (vk (col e pobs) (ix U i)) (vk (col e pbg) (ix U i)))))).
Definition finv (y : Z) (p1 : point) (s : val) (U : list Z) (N : list (list rv)) (e : Z) : rv :=
  let x := incv y p1 s U N e in if ex then x else rlimit0 x (v2r (amax (dep pobs pbg U e))) (v2r (amin (dep pobs pbg U e))).

Lemma dyn_system_ok U : (forall k, In k U -> 0 <= k < nS) ->
  dyn_system S pvec pratios m (map (fun k => map (fun e => RF (zsc ms (b k) e)) ms) U) U = Ok (sysm U).
Proof.
  intros RU. destruct HS as (S1 & S2 & S3). unfold dyn_system, sysm. apply mapM_ok. intros i Hi. apply in_zrange in Hi. rewrite (ix_ok U i Hi). cbn [bind].
  pose proof (ix_In U i Hi) as HiU. rewrite (vk_ok pratios) by (rewrite LPR; apply RU; exact HiU). cbn [bind]. unfold pvec. rewrite znth_pvec by (apply RU; exact HiU). cbn [bind].
  rewrite (mapM_ok _ (ptk pts)) by (intros k Hk; apply znth_pvec; apply RU; exact Hk). cbn [bind]. rewrite S2. cbn [bind]. rewrite map_map.
  rewrite znth_map_ix by exact Hi. cbn [bind]. apply mapM_ok. intros j Hj. apply in_zrange in Hj. rewrite !znth_map_ix by exact Hj. cbn [bind].
  rewrite rdot_ok by lia. reflexivity.
Qed.
Lemma sysm_rect U : rect (zlen U) (zlen U) (sysm U).
Proof. pose proof (zlen_nonneg U). apply rect_map_zrange; lia. Qed.

Lemma cell_choice y la lo p1 row s : znth blas y = Ok la -> znth blos y = Ok lo -> points_get bpts y = Ok p1 ->
  znth background y = Ok row -> znth bratios y = Ok s ->
  exists U, chosen' mp p1 (position G t la lo) U /\ (forall k, In k U -> 0 <= k < nS) /\ NoDup U /\
    (U = [] -> cell y = Ok (map v2r row)) /\
    (U <> [] ->
       (exists N out, r_inv RL (sysm U) = Ok N /\ rect (zlen U) (zlen U) N /\ cell y = Ok out /\ zlen out = nE /\ (forall e, m <= e -> znth out e = znth (map v2r row) e) /\
          forall e, 0 <= e < m -> znth out e = Ok (radd (v2r (vk row e)) (finv y p1 s U N e))) \/
       (cell y = Throw RuntimeError /\ r_inv RL (sysm U) = Throw RuntimeError)).
Proof.
  intros Hla Hlo Hp1 Hrow Hs.
  pose proof (znth_range _ _ _ Hla) as Ry.
  destruct (at_get _ _ _ _ _ y HB Ry) as (p & la' & lo' & _ & Hla' & Hlo' & Gla & Glo & V & _).
  assert (la' = la) by congruence. assert (lo' = lo) by congruence. subst la' lo'.
  destruct (select_ok G L S t blas blos las los bpts pts (fun k => get2 pobs k 0) (col 0 pobs) mp loc rho bg HG HLib HS HB HP) with (y := y) (la := la) (lo := lo) (p1 := p1)
    as (U & HU & RU & EU); auto.
  { intros k Hk. eapply vk_col; eauto; lia. }
  { rewrite zlen_col. apply RO. }
  exists U. split; [exact HU|]. split; [exact RU|]. split; [apply HU|].
  unfold ebe_cell. rewrite Hrow, Hs, Gla, Glo, Hp1. cbn [bind]. fold nS in EU. fold pvec in EU. rewrite EU. cbn [bind]. rewrite zlen_map.
  split; [intros ->; reflexivity|]. intros NE.
  assert (Hn : 0 < zlen U) by (destruct U as [|u U']; [congruence|]; rewrite zlen_cons; pose proof (zlen_nonneg U'); lia).
  replace (zlen U =? 0) with false by lia. rewrite !map_map. cbn [fst snd]. rewrite map_id. rewrite !zlen_zrange. replace (Z.max 0 (m - 0)) with m by lia.
  destruct (znth_some background_corr y) as [crow Ec]; [destruct RC; lia|]. rewrite Ec. cbn [bind].
  rewrite (mapM_ok (fun ei => znth crow ei) (fun e => Fin (xc y e))).
  2:{ intros e He. apply in_zrange in He. specialize (HX y e Ry He). unfold get2 in HX. rewrite Ec in HX. exact HX. }
  cbn [bind]. rewrite normed_ok; [|apply NoDup_zrange|rewrite zrange_cons by lia; discriminate]. cbn [bind].
  rewrite (mapM_ok (fun k => znth gZ k) (fun k => map (fun e => RF (zsc ms (b k) e)) ms)) by (intros k Hk; apply HZ; apply RU; exact Hk). cbn [bind].
  pose proof (innov_ok las pobs pbg nE m Hm RO RG U RU) as EI. rewrite zlen_zrange in EI. replace (Z.max 0 (m - 0)) with m in EI by lia. rewrite EI. cbn [bind].
  rewrite (dyn_system_ok U RU). cbn [bind].
  rewrite (mapM_ok _ (gv y p1 U)).
  2:{ intros i Hi. apply in_zrange in Hi. rewrite !znth_map_ix by exact Hi. cbn [bind snd]. rewrite rdot_ok by lia. reflexivity. }
  cbn [bind]. unfold dyn_update. rewrite zlen_map, !zlen_zrange. replace (Z.max 0 (zlen U - 0)) with (zlen U) by lia. replace (Z.max 0 (m - 0)) with m by lia.
  destruct (ok_rinv_size _ HR (zlen U) (sysm U) Hn (sysm_rect U)) as [(N & EN & RN)|ET].
  2:{ right. rewrite ET. split; reflexivity. }
  left. rewrite EN. cbn [bind]. exists N.
  rewrite (mapM_ok _ (lkv y p1 U N)).
  2:{ intros j Hj. apply in_zrange in Hj. apply rsumM_fold. intros i Hi. rewrite znth_map, znth_zrange by lia. cbn [bind].
      unfold rg. destruct (rect_get2 _ _ _ i j RN Hi Hj) as [v Hv]. rewrite Hv. reflexivity. }
  cbn [bind].
  rewrite (mapM_ok _ (finv y p1 s U N)).
  2:{ intros e He. apply in_zrange in He. rewrite (innov_col las pobs pbg m U e He). cbn [bind].
      rewrite (rsumM_fold (zlen U) _ (fun i => rmul (lkv y p1 U N i) (v2r (vsub (vk (col e pobs) (ix U i)) (vk (col e pbg) (ix U i)))))).
      2:{ intros i Hi. rewrite znth_map, znth_zrange by lia. cbn [bind]. unfold dep. rewrite znth_map_ix by exact Hi. reflexivity. }
      reflexivity. }
  cbn [bind].
  assert (Lrow : zlen row = nE) by (apply RB; eapply znth_In; eauto).
  match goal with |- context [foldM ?g (map v2r row) ms] =>
    destruct (write_at ms (fun e => radd (v2r (vk row e)) (finv y p1 s U N e)) g (map v2r row)) as (out & EE & El & Ea & Eb) end.
  { apply NoDup_zrange. }
  { intros k Hk. apply in_zrange in Hk. rewrite zlen_map. lia. }
  { intros a e He. rewrite zlen_zrange in He. rewrite znth_zrange by lia. cbn [bind]. rewrite ix_zrange by lia. replace (0 + e) with e by lia. rewrite (vk_ok row) by lia. cbn [bind].
    rewrite znth_map, znth_zrange by lia. reflexivity. }
  rewrite zlen_zrange in EE, Ea. replace (Z.max 0 (m - 0)) with m in EE, Ea by lia. rewrite zlen_map in El.
  exists out. split; [reflexivity|]. split; [exact RN|]. split; [exact EE|]. split; [lia|]. split.
  - intros e He. apply Eb. intros H. apply in_zrange in H. lia.
  - intros e He. specialize (Ea e He). rewrite ix_zrange in Ea by lia. exact Ea.
Qed.
End Cell.
(** *** finite data *)
Lemma rby_obs U (x : Z -> R) : NoDup U -> exists w, forall i, 0 <= i < zlen U -> w (ix U i) = x i.
Proof.
  intros ND. exists (fun k => rtot (zrange 0 (zlen U)) (fun i => if ix U i =? k then x i else 0)%R). intros i Hi.
  rewrite (rtot_ext _ _ (fun j => x j * runit j i)%R).
  - apply rtot_delta; [apply NoDup_zrange|apply in_zrange; exact Hi].
  - intros j Hj. apply in_zrange in Hj. unfold runit. destruct (Z.eqb_spec j i) as [-> |N]; [rewrite Z.eqb_refl; ring|].
    destruct (Z.eqb_spec (ix U j) (ix U i)) as [E|_]; [|ring]. exfalso. apply N. eapply ix_inj; eauto.
Qed.
Lemma fun_choice2 U V (P : Z -> Z -> R -> Prop) : (forall k j, exists c, P k j c) -> exists f, forall k j, In k U -> In j V -> P k j (f k j).
Proof.
  intros H.
  assert (K1 : forall k l, exists f, forall j, In j l -> P k j (f j)).
  { intros k. induction l as [|j l [f IH]]; [exists (fun _ => 0%R); intros j []|]. destruct (H k j) as [c Hc]. exists (fun i => if i =? j then c else f i).
    intros i Hi. destruct (Z.eqb_spec i j) as [-> |N]; [exact Hc|]. destruct Hi as [Hi|Hi]; [congruence|auto]. }
  induction U as [|k U [f IH]]; [exists (fun _ _ => 0%R); intros k j []|]. destruct (K1 k V) as [h Hh]. exists (fun i => if i =? k then h else f i).
  intros i j Hi Hj. destruct (Z.eqb_spec i k) as [-> |N]; [auto|]. destruct Hi as [Hi|Hi]; [congruence|auto].
Qed.
Section RSolve.
Variables (n : Z) (A B : Z -> Z -> R) (gg : Z -> R).
Hypothesis BL : forall i j, 0 <= i < n -> 0 <= j < n -> rtot (zrange 0 n) (fun k => B i k * A k j)%R = runit i j.
Hypothesis BR : forall i j, 0 <= i < n -> 0 <= j < n -> rtot (zrange 0 n) (fun k => A i k * B k j)%R = runit i j.
Notation x := (fun j => rtot (zrange 0 n) (fun i => gg i * B i j)%R).
Lemma rsol_solves l : 0 <= l < n -> rtot (zrange 0 n) (fun i => x i * A i l)%R = gg l.
Proof.
  intros Hl. transitivity (rtot (zrange 0 n) (fun i => rtot (zrange 0 n) (fun k => gg k * (B k i * A i l))))%R.
  { apply rtot_ext. intros i _. rewrite <- rtot_mul_r. apply rtot_ext. intros; ring. }
  rewrite rtot_swap. transitivity (rtot (zrange 0 n) (fun k => gg k * runit k l)%R).
  { apply rtot_ext. intros k Hk. apply in_zrange in Hk. rewrite rtot_mul_l, BL by assumption. reflexivity. }
  apply rtot_delta; [apply NoDup_zrange|apply in_zrange; exact Hl].
Qed.
Lemma rsol_unique x' : (forall l, 0 <= l < n -> rtot (zrange 0 n) (fun i => x' i * A i l)%R = gg l) -> forall j, 0 <= j < n -> x' j = x j.
Proof.
  intros H j Hj. cbn beta. transitivity (rtot (zrange 0 n) (fun i => rtot (zrange 0 n) (fun k => x' k * A k i) * B i j)%R).
  2:{ apply rtot_ext. intros i Hi. apply in_zrange in Hi. rewrite H by exact Hi. reflexivity. }
  transitivity (rtot (zrange 0 n) (fun i => rtot (zrange 0 n) (fun k => x' k * (A k i * B i j))))%R.
  2:{ apply rtot_ext. intros i _. rewrite <- rtot_mul_r. apply rtot_ext. intros; ring. }
  rewrite rtot_swap. transitivity (rtot (zrange 0 n) (fun k => x' k * runit k j)%R).
  { symmetry. apply rtot_delta; [apply NoDup_zrange|apply in_zrange; exact Hj]. }
  apply rtot_ext. intros k Hk. apply in_zrange in Hk. rewrite rtot_mul_l, BR by assumption. reflexivity.
Qed.
End RSolve.

Section Fin.
Variables (RL : rlib) (pts : points) (pobs pbg : vec2) (pratios : vec) (ex : bool) (rho bg : point -> point -> val) (m : Z) (b xc : Z -> Z -> Qc).
Hypothesis HR : rlib_ok RL.
Hypothesis Hm : 0 < m.
Notation ms := (zrange 0 m).
Variables (U : list Z) (r : Z -> Z -> Qc) (ratio g d : Z -> Qc) (y e : Z) (p1 : point) (s : Qc).
Hypothesis ND : NoDup U.
Hypothesis NE : U <> [].
Hypothesis Fr : forall k j, In k U -> In j U -> rho (ptk pts k) (ptk pts j) = Fin (r k j).
Hypothesis Fq : forall k, In k U -> vk pratios k = Fin (ratio k).
Definition amatr (i j : Z) : R := (qr (r (ix U i) (ix U j)) * zz m b (ix U i) (ix U j) + (if i =? j then qr (ratio (ix U i)) else 0))%R.
Lemma sysm_ok : rentries (zlen U) (sysm pts pratios rho m b U) amatr.
Proof.
  pose proof (zlen_nonneg U). split; [unfold sysm; apply rect_map_zrange; lia|]. intros i j Hi Hj. unfold sysm. rewrite get2_map_zrange by assumption. f_equal. unfold sysv, amatr.
  rewrite Fr by (apply ix_In; assumption). rewrite Fq by (apply ix_In; assumption). destruct (i =? j); reflexivity.
Qed.
Hypothesis Fg : forall k, In k U -> bg p1 (ptk pts k) = Fin (g k).
Hypothesis Fd : forall k, In k U -> vsub (vk (col e pobs) k) (vk (col e pbg) k) = Fin (d k).
Lemma finv_ok N v : r_inv RL (sysm pts pratios rho m b U) = Ok N ->
  dynamic_analysis (IZR m / IZR (m - 1)) ms U (xc y) b r ratio g d s ex v (radd (RF (qr v)) (finv pts pobs pbg ex bg m b xc y p1 (Fin s) U N e)).
Proof.
  intros EN. set (n := zlen U).
  assert (Hn : 0 < n) by (unfold n; destruct U as [|u U']; [congruence|]; rewrite zlen_cons; pose proof (zlen_nonneg U'); lia).
  destruct (ok_rinv _ HR n _ _ N Hn sysm_ok EN) as (B & [RB EB] & BL & BR).
  assert (NEm : ms <> []) by (rewrite zrange_cons by lia; discriminate).
  assert (ZL : zlen ms = m) by (rewrite zlen_zrange; lia).
  destruct (fun_choice2 U U (fun k j c => correlation ms (b k) (b j) c)) as [cs Hcs]; [intros; apply has_correlation|].
  destruct (fun_choice2 U U (fun k j c => correlation ms (xc y) (b k) c)) as [cx0 Hcx0]; [intros; apply has_correlation|].
  set (cx := fun k => cx0 k k). assert (Hcx : forall k, In k U -> correlation ms (xc y) (b k) (cx k)) by (intros; apply Hcx0; assumption). clearbody cx.
  exists cs, cx. split; [exact Hcs|]. split; [exact Hcx|].
  set (F := (IZR m / IZR (m - 1))%R).
  assert (Ezz : forall k j, In k U -> In j U -> zz m b k j = (F * cs k j)%R).
  { intros k j Hk Hj. unfold zz. rewrite (inner_corr ms (b k) (b j) (cs k j)); auto; [|apply NoDup_zrange]. rewrite ZL. reflexivity. }
  assert (Ezx : forall k, In k U -> zx m b xc y k = (F * cx k)%R).
  { intros k Hk. unfold zx. rewrite (inner_corr ms (xc y) (b k) (cx k)); auto; [|apply NoDup_zrange]. rewrite ZL. reflexivity. }
  split; [congruence|]. intros _.
  set (gg := fun i => (qr (g (ix U i)) * (F * cx (ix U i)))%R).
  set (x := fun j => rtot (zrange 0 n) (fun i => gg i * B i j)%R).
  assert (Elk : forall j, 0 <= j < n -> lkv pts bg m b xc y p1 U N j = RF (x j)).
  { intros j Hj. unfold lkv, x. apply rfold_RF. intros i Hi. unfold gv, rg. rewrite Fg by (apply ix_In; exact Hi). rewrite EB by assumption.
    rewrite Ezx by (apply ix_In; exact Hi). reflexivity. }
  destruct (rby_obs U x ND) as [w Hw]. fold n in Hw.
  assert (Tw : forall f, rtot U (fun k => w k * f k)%R = rtot (zrange 0 n) (fun i => x i * f (ix U i))%R).
  { intros f. rewrite rtot_ix. apply rtot_ext. intros i Hi. apply in_zrange in Hi. rewrite Hw by exact Hi. reflexivity. }
  assert (Einc : incv pts pobs pbg bg m b xc y p1 (Fin s) U N e = RF (qr s * rtot U (fun k => w k * qr (d k)))%R).
  { unfold incv. fold n. rewrite (rfold_RF n _ (fun i => x i * qr (d (ix U i)))%R); [rewrite Tw; reflexivity|].
    intros i Hi. rewrite Elk by exact Hi. rewrite Fd by (apply ix_In; exact Hi). reflexivity. }
  assert (Aeq : forall i l, 0 <= i < n -> 0 <= l < n ->
     (qr (r (ix U i) (ix U l)) * (F * cs (ix U i) (ix U l)) + (if ix U i =? ix U l then qr (ratio (ix U i)) else 0))%R = amatr i l).
  { intros i l Hi Hl. unfold amatr. rewrite Ezz by (apply ix_In; assumption). f_equal. destruct (Z.eqb_spec i l) as [-> |En]; [rewrite Z.eqb_refl; reflexivity|].
    destruct (Z.eqb_spec (ix U i) (ix U l)) as [E'|_]; [|reflexivity]. exfalso. apply En. eapply ix_inj; eauto. }
  assert (Edep : dep pobs pbg U e = map (fun k => Fin (d k)) U) by (unfold dep; apply map_ext_in; intros k Hk; apply Fd; exact Hk).
  destruct (amax_ok d U NE) as (hi & Ehi & Hhi). destruct (amin_ok d U NE) as (lo & Elo & Hlo).
  assert (Hlh : (qr lo <= qr hi)%R). { apply qr_le. destruct Hhi as [(k0 & Hk0 & <-) _]. apply Hlo. exact Hk0. }
  destruct (rlimit0_ok (qr s * rtot U (fun k => w k * qr (d k)))%R (qr hi) (qr lo) Hlh) as (z0 & Ez & Cz).
  exists w, (if ex then (qr s * rtot U (fun k => w k * qr (d k)))%R else z0).
  split; [|split; [|split; [|split]]].
  - intros j Hj. destruct (In_ix U j Hj) as (l & Hl & <-). rewrite Tw.
    rewrite (rtot_ext _ _ (fun i => x i * amatr i l)%R).
    2:{ intros i Hi. apply in_zrange in Hi. rewrite <- (Aeq i l) by assumption. reflexivity. }
    apply (rsol_solves n amatr B gg BL l Hl).
  - intros w' Hw' k Hk. destruct (In_ix U k Hk) as (i & Hi & <-). rewrite Hw by exact Hi.
    apply (rsol_unique n amatr B gg BR (fun i => w' (ix U i))); [|exact Hi].
    intros l Hl. pose proof (Hw' (ix U l) (ix_In U l Hl)) as H. rewrite rtot_ix in H. fold n in H. unfold gg. rewrite <- H. apply rtot_ext. intros i' Hi'. apply in_zrange in Hi'.
    rewrite Aeq by assumption. reflexivity.
  - unfold finv. rewrite Einc, Edep, Ehi, Elo. cbn [v2r]. rewrite Ez. destruct ex; reflexivity.
  - intros ->. reflexivity.
  - intros ->. exists lo, hi. auto.
Qed.
End Fin.
(** *** regularity *)
Section Reg.
Variables (RL : rlib) (pts : points) (pratios : vec) (rho : point -> point -> val) (m : Z) (b : Z -> Z -> Qc).
Hypothesis HR : rlib_ok RL.
Notation ms := (zrange 0 m).
Variables (U : list Z) (r : Z -> Z -> Qc) (ratio : Z -> Qc).
Hypothesis ND : NoDup U.
Hypothesis NE : U <> [].
Hypothesis Fr : forall k j, In k U -> In j U -> rho (ptk pts k) (ptk pts j) = Fin (r k j).
Hypothesis Fq : forall k, In k U -> vk pratios k = Fin (ratio k).
Lemma dyn_regular : (forall c : Z -> R, (0 <= rtot U (fun k => rtot U (fun j => c k * c j * qr (r k j))))%R) -> (forall k, In k U -> (0 < ratio k)%Qc) ->
  forall er, r_inv RL (sysm pts pratios rho m b U) <> Throw er.
Proof.
  intros PSD HP er ET. set (n := zlen U).
  assert (Hn : 0 < n) by (unfold n; destruct U as [|u U']; [congruence|]; rewrite zlen_cons; pose proof (zlen_nonneg U'); lia).
  destruct (ok_rinv_sing _ HR n _ _ er Hn (sysm_ok pts pratios rho m b U r ratio Fr Fq) ET) as (x & (i0 & Hi0 & Nx) & HK).
  destruct (rby_obs U x ND) as [w Hw]. fold n in Hw.
  assert (E0 : rtot (zrange 0 n) (fun j => rtot (zrange 0 n) (fun i => x i * amatr m b U r ratio i j) * x j)%R = 0%R).
  { apply rtot_zero. intros j Hj. apply in_zrange in Hj. rewrite HK by exact Hj. ring. }
  assert (E1 : rtot (zrange 0 n) (fun j => rtot (zrange 0 n) (fun i => x i * amatr m b U r ratio i j) * x j)%R =
     (rtot ms (fun e => rtot U (fun k => rtot U (fun j => (w k * zsc ms (b k) e) * (w j * zsc ms (b j) e) * qr (r k j)))) + rtot (zrange 0 n) (fun i => qr (ratio (ix U i)) * (x i * x i)))%R).
  { transitivity (rtot (zrange 0 n) (fun j => rtot (zrange 0 n) (fun i => x i * x j * (qr (r (ix U i) (ix U j)) * zz m b (ix U i) (ix U j))) + qr (ratio (ix U j)) * (x j * x j)))%R.
    - apply rtot_ext. intros j Hj. apply in_zrange in Hj. rewrite <- rtot_mul_r.
      transitivity (rtot (zrange 0 n) (fun i => x i * x j * (qr (r (ix U i) (ix U j)) * zz m b (ix U i) (ix U j)) + (qr (ratio (ix U i)) * (x i * x i)) * runit i j))%R.
      + apply rtot_ext. intros i _. unfold amatr, runit. destruct (Z.eqb_spec i j) as [-> |_]; ring.
      + rewrite rtot_add. f_equal. apply (rtot_delta (zrange 0 n) (fun i => qr (ratio (ix U i)) * (x i * x i))%R); [apply NoDup_zrange|apply in_zrange; exact Hj].
    - rewrite rtot_add. f_equal.
      transitivity (rtot U (fun j => rtot U (fun k => rtot ms (fun e0 => (w k * zsc ms (b k) e0) * (w j * zsc ms (b j) e0) * qr (r k j)))))%R.
      + rewrite (rtot_ix U). fold n. apply rtot_ext. intros j Hj. apply in_zrange in Hj. rewrite (rtot_ix U). fold n. apply rtot_ext. intros i Hi. apply in_zrange in Hi.
        rewrite !Hw by assumption. unfold zz. rewrite <- !rtot_mul_l. apply rtot_ext. intros; ring.
      + rewrite rtot_swap. transitivity (rtot U (fun k => rtot ms (fun e0 => rtot U (fun j => (w k * zsc ms (b k) e0) * (w j * zsc ms (b j) e0) * qr (r k j)))))%R.
        * apply rtot_ext. intros k _. apply rtot_swap.
        * apply rtot_swap. }
  assert (P1 : (0 <= rtot ms (fun e => rtot U (fun k => rtot U (fun j => (w k * zsc ms (b k) e) * (w j * zsc ms (b j) e) * qr (r k j)))))%R).
  { apply rtot_nonneg. intros e0 _. apply (PSD (fun k => w k * zsc ms (b k) e0)%R). }
  assert (P2 : forall i, In i (zrange 0 n) -> (0 <= qr (ratio (ix U i)) * (x i * x i))%R).
  { intros i Hi. apply in_zrange in Hi. apply Rmult_le_pos; [|apply Rle_0_sqr]. rewrite <- qr_0. apply qr_le. apply Qclt_le_weak. apply HP. apply ix_In. exact Hi. }
  pose proof (rtot_nonneg _ _ P2) as P3. assert (E2 : rtot (zrange 0 n) (fun i => qr (ratio (ix U i)) * (x i * x i))%R = 0%R) by lra.
  pose proof (rtot_zero_each _ _ E2 P2 i0 ltac:(apply in_zrange; exact Hi0)) as E3.
  assert (P4 : (0 < qr (ratio (ix U i0)))%R) by (rewrite <- qr_0; apply qr_lt; apply HP; apply ix_In; exact Hi0).
  apply Rmult_integral in E3 as [E3|E3]; [lra|]. apply Rmult_integral in E3. tauto.
Qed.
End Reg.
