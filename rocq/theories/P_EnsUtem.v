(** The ensemble transform with ensemble correlations at one background point: what the code computes. *)
From Coq Require Import Lra.
From Verif Require Import Base QcTac ListLib RBase P_RBase M_Geo S_Geo M_Stat S_Stat P_Stat M_OI S_OI P_OISum P_OI P_OISolve P_OITotal M_EnsMulti M_Ensi M_EnsDyn M_EnsUtem P_EnsSel P_EnsMulti S_EnsMulti S_Ensi S_EnsDyn S_EnsUtem P_RSum P_EnsiAlg P_RAlg P_EnsiCell P_EnsiFin P_EnsDyn P_EnsDynCell.
Local Open Scope Z_scope.

(** *** real matrices *)
Definition rmat (n m : Z) (M : list (list rv)) (A : Z -> Z -> R) : Prop :=
  rect n m M /\ forall i j, 0 <= i < n -> 0 <= j < m -> get2 M i j = Ok (RF (A i j)).
Lemma tab2_rmat n m f A : 0 <= n -> 0 <= m -> (forall i j, 0 <= i < n -> 0 <= j < m -> f i j = Ok (RF (A i j))) -> exists M, tab2 n m f = Ok M /\ rmat n m M A.
Proof.
  intros Hn Hm H. destruct (tab2_total n m f (fun i j v => v = RF (A i j)) Hn Hm) as (M & E & R & HM).
  { intros i j Hi Hj. eexists. split; [apply H; assumption|reflexivity]. }
  exists M. split; [exact E|]. split; [exact R|]. intros i j Hi Hj. destruct (HM i j Hi Hj) as (v & -> & _ & ->). reflexivity.
Qed.
Lemma rmat_ext n m M A B : rmat n m M A -> (forall i j, 0 <= i < n -> 0 <= j < m -> A i j = B i j) -> rmat n m M B.
Proof. intros [R H] E. split; [exact R|]. intros i j Hi Hj. rewrite <- E by assumption. apply H; assumption. Qed.
Lemma rmmul_ok n k m A B a b : 0 <= n -> 0 <= m -> rmat n k A a -> rmat k m B b ->
  exists C, rmmul n k m A B = Ok C /\ rmat n m C (fun i j => rtot (zrange 0 k) (fun l => a i l * b l j)%R).
Proof.
  intros Hn Hm [_ HA] [_ HB]. apply tab2_rmat; try assumption. intros i j Hi Hj. apply rsumM_ok. intros l Hl. rewrite HA, HB by assumption. reflexivity.
Qed.
Lemma rmmul_rect n k m A B : 0 <= n -> 0 <= m -> rect n k A -> rect k m B -> exists C, rmmul n k m A B = Ok C /\ rect n m C.
Proof.
  intros Hn Hm HA HB. apply tab2_rect; try assumption. intros i j Hi Hj. apply rsumM_total. intros l Hl.
  destruct (rect_get2 _ _ _ i l HA Hi Hl) as [x ->]. destruct (rect_get2 _ _ _ l j HB Hl Hj) as [z ->]. cbn [bind]. eauto.
Qed.
Lemma rtransp_ok n m A a : 0 <= n -> 0 <= m -> rmat n m A a -> exists C, rtransp n m A = Ok C /\ rmat m n C (fun i j => a j i).
Proof. intros Hn Hm [_ HA]. apply tab2_rmat; try assumption. intros i j Hi Hj. apply HA; assumption. Qed.
Lemma rtransp_rect n m (A : list (list rv)) : 0 <= n -> 0 <= m -> rect n m A -> exists C, rtransp n m A = Ok C /\ rect m n C.
Proof. intros Hn Hm HA. apply tab2_rect; try assumption. intros i j Hi Hj. apply (rect_get2 _ _ _ j i HA); assumption. Qed.

Section Mats.
Variables (lS nV : Z) (g ratios : vec) (lYc : list (list rv)).
Hypothesis HlS : 0 <= lS.
Hypothesis HnV : 0 <= nV.
Lemma utem_c_rect : zlen g = lS -> zlen ratios = lS -> rect lS nV lYc -> exists C, utem_c lS nV g ratios lYc = Ok C /\ rect nV lS C.
Proof.
  intros Hg Hs HY. unfold utem_c.
  destruct (tab2_rect lS lS (fun i j => if i =? j then r <- znth g i ;; s <- znth ratios i ;; Ok (v2r (vdiv r s)) else Ok (rz 0)) HlS HlS) as (Ri & -> & HRi).
  { intros i j Hi Hj. destruct (i =? j); [|eauto]. destruct (znth_some g i ltac:(lia)) as [a ->]. destruct (znth_some ratios i ltac:(lia)) as [b ->]. cbn [bind]. eauto. }
  cbn [bind]. destruct (rtransp_rect lS nV lYc HlS HnV HY) as (T & -> & HT). cbn [bind]. apply rmmul_rect; assumption.
Qed.
Lemma utem_c_ok gg s y : (forall i, 0 <= i < lS -> znth g i = Ok (Fin (gg i))) -> (forall i, 0 <= i < lS -> znth ratios i = Ok (Fin (s i)) /\ s i <> 0%Qc) ->
  rmat lS nV lYc y -> exists C, utem_c lS nV g ratios lYc = Ok C /\ rmat nV lS C (fun e i => y i e * qr (gg i / s i)%Qc)%R.
Proof.
  intros Hg Hs HY. unfold utem_c.
  destruct (tab2_rmat lS lS (fun i j => if i =? j then r <- znth g i ;; s <- znth ratios i ;; Ok (v2r (vdiv r s)) else Ok (rz 0))
    (fun i j => qr (gg i / s i)%Qc * runit i j)%R HlS HlS) as (Ri & -> & HRi).
  { intros i j Hi Hj. unfold runit. destruct (i =? j).
    - rewrite Hg by exact Hi. destruct (Hs i Hi) as [-> Nz]. cbn [bind]. rewrite vdiv_ok by exact Nz. cbn [v2r]. do 2 f_equal. ring.
    - unfold rz. do 2 f_equal. ring. }
  cbn [bind]. destruct (rtransp_ok lS nV lYc _ HlS HnV HY) as (T & -> & HT). cbn [bind].
  destruct (rmmul_ok nV lS lS T Ri _ _ HnV HlS HT HRi) as (C & EC & HC). exists C. split; [exact EC|]. eapply rmat_ext; [exact HC|]. intros e i He Hi. cbn beta.
  rewrite (rtot_ext _ _ (fun l => (y l e * qr (gg l / s l)%Qc) * runit l i)%R) by (intros; ring).
  rewrite (rtot_delta _ (fun l => y l e * qr (gg l / s l)%Qc)%R i (NoDup_zrange _ _)) by (apply in_zrange; exact Hi). reflexivity.
Qed.
Lemma utem_pinv_rect C : rect nV lS C -> rect lS nV lYc -> exists M, utem_pinv lS nV C lYc = Ok M /\ rect nV nV M.
Proof.
  intros HC HY. unfold utem_pinv. destruct (rmmul_rect nV lS nV C lYc HnV HnV HC HY) as (D & -> & HD). cbn [bind].
  apply tab2_rect; try assumption. intros i j Hi Hj. destruct (rect_get2 _ _ _ i j HD Hi Hj) as [a ->]. cbn [bind]. eauto.
Qed.
Lemma utem_pinv_ok C c y : rmat nV lS C c -> rmat lS nV lYc y ->
  exists M, utem_pinv lS nV C lYc = Ok M /\ rmat nV nV M (fun i j => rtot (zrange 0 lS) (fun k => c i k * y k j) + runit i j)%R.
Proof.
  intros HC HY. unfold utem_pinv. destruct (rmmul_ok nV lS nV C lYc _ _ HnV HnV HC HY) as (D & -> & HD). cbn [bind].
  apply tab2_rmat; try assumption. intros i j Hi Hj. destruct HD as [_ ->]; try assumption. cbn [bind]. unfold runit, rz. destruct (i =? j); cbn [rmul radd]; do 2 f_equal; ring.
Qed.
End Mats.

(** *** the update once the observations are chosen *)
Definition ucore (E : ext) (RL : rlib) (XL : xlib) (valid : list Z) (ex : bool) (lS : Z) (g ratios lObs lYhat : vec) (lY : vec2) (lYc : list (list rv)) (ratio : val)
  (row crow : vec) : res (list rv) :=
  let nV := zlen valid in
  C <- utem_c lS nV g ratios lYc ;;
  Pinv <- utem_pinv lS nV C lYc ;;
  if rleb (x_rcond XL Pinv) (rz 0) then Ok (map v2r row) else
  P <- r_inv RL Pinv ;;
  A <- tab2 nV nV (fun i j => p <- get2 P i j ;; Ok (rmul (rz (nV - 1)) p)) ;;
  match x_eig XL A with
  | None => Ok (map v2r row)
  | Some (lam, V) => utem_update E lS valid lObs lYhat lY C P lam V ratio ex row crow
  end.
Definition rk (l : list rv) (i : Z) : rv := match znth l i with Ok v => v | _ => RNaN end.
Lemma rk_ok l i : 0 <= i < zlen l -> znth l i = Ok (rk l i).
Proof. intros H. unfold rk. destruct (znth_some l i H) as [v ->]. reflexivity. Qed.
Lemma rg_ok n m M i j : rect n m M -> 0 <= i < n -> 0 <= j < m -> get2 M i j = Ok (rg M i j).
Proof. intros R Hi Hj. unfold rg. destruct (rect_get2 _ _ _ i j R Hi Hj) as [v ->]. reflexivity. Qed.
Lemma mean_avg ms (f : Z -> Qc) : ms <> [] -> vdiv (fold_left vadd (map (fun e => Fin (f e)) ms) (fz 0)) (fz (zlen ms)) = Fin (avg ms f).
Proof.
  intros NE. rewrite fz0.
  assert (K : forall l acc, fold_left vadd (map (fun e => Fin (f e)) l) (Fin acc) = Fin (acc + tot l f)%Qc).
  { induction l as [|i l IH]; intros acc; cbn [map fold_left]. { unfold tot; cbn. f_equal. ring. }
    cbn [vadd]. rewrite IH. rewrite tot_cons. f_equal. ring. }
  rewrite K. change (fz (zlen ms)) with (Fin (qz (zlen ms))). rewrite vdiv_ok.
  - unfold avg. rewrite Qcplus_0_l. reflexivity.
  - apply qz_neq0. destruct ms; [congruence|]. rewrite zlen_cons. pose proof (zlen_nonneg ms). lia.
Qed.
Lemma var_sdev E ms (f : Z -> Qc) : ms <> [] -> exists v, calc_statistic E (map (fun e => Fin (f e)) ms) Variance = Ok v /\ rsqrt (v2r v) = RF (sdev ms f).
Proof.
  intros NE. rewrite (calc_var_std E _ Variance (or_introl eq_refl)), finites_fin. cbn [stat_eqb].
  assert (N2 : map f ms <> []) by (intros H; apply map_eq_nil in H; congruence).
  assert (EV : (match map f ms with [] => MV | _ :: _ => Fin (qvar (map f ms)) end) = Fin (tot ms (fun e => dev ms f e * dev ms f e) / qz (zlen ms))%Qc) by (rewrite <- qvar_tot; destruct (map f ms); [congruence|reflexivity]).
  rewrite EV. eexists. split; [reflexivity|]. cbn [v2r]. rewrite rsqrt_RF; [reflexivity|]. rewrite <- qvar_tot. rewrite <- qr_0. apply qr_le. apply qvar_nonneg.
Qed.

Section Core.
Variables (E : ext) (RL : rlib) (XL : xlib) (valid : list Z) (ex : bool) (nE : Z) (U : list Z) (b bc : Z -> Z -> Qc) (x xc : Z -> Qc)
  (g ratios lObs : vec) (ratio : val) (row crow : vec).
Hypothesis HRL : rlib_ok RL.
Hypothesis HXL : xlib_ok XL.
Hypothesis NEU : U <> [].
Hypothesis NEV : valid <> [].
Hypothesis NDV : NoDup valid.
Hypothesis HV : forall e, In e valid -> 0 <= e < nE.
Hypothesis LR : zlen row = nE.
Hypothesis Fx : forall e, In e valid -> znth row e = Ok (Fin (x e)).
Hypothesis Fxc : forall e, In e valid -> znth crow e = Ok (Fin (xc e)).
Notation lS := (zlen U).
Notation nV := (zlen valid).
Notation I := (zrange 0 nV).
Notation lY := (map (fun k => map (fun e => Fin (dev valid (b k) e)) valid) U).
Notation lYhat := (map (fun k => Fin (avg valid (b k))) U).
Notation lYc := (map (fun k => map (fun e => RF (zsc valid (bc k) e)) valid) U).
Notation run := (ucore E RL XL valid ex lS g ratios lObs lYhat lY lYc ratio row crow).
Definition uinc (W : list (list rv)) (w : Z -> rv) (e : Z) : rv :=
  rfold nV (fun k => rmul (RF (zsc valid xc (ix valid k))) (radd (rmul (RF (sdev valid x)) (rg W k e)) (rmul (v2r ratio) (w k)))).
Definition udep (e : Z) : vec :=
  map (fun i => vsub (vk lObs i) (vadd (Fin (dev valid (b (ix U (e mod lS))) (ix valid (e / lS)))) (Fin (avg valid (b (ix U i)))))) (zrange 0 lS).
Definition ufin (W : list (list rv)) (w : Z -> rv) (e : Z) : rv :=
  if ex then uinc W w e else ens_limit (uinc W w e) (RF (qr (dev valid x (ix valid e)))) (v2r (amax (udep e))) (v2r (amin (udep e))).
Definition uw (PC : list (list rv)) (e : Z) : rv := rfold lS (fun i => rmul (rg PC e i) (v2r (vsub (vk lObs i) (Fin (avg valid (b (ix U i))))))).

Lemma lS_pos : 0 < lS. Proof. destruct U; [congruence|]. rewrite zlen_cons. pose proof (zlen_nonneg l). lia. Qed.
Lemma nV_pos : 0 < nV. Proof. destruct valid; [congruence|]. rewrite zlen_cons. pose proof (zlen_nonneg l). lia. Qed.
Lemma lYc_mat : rmat lS nV lYc (fun i j => zsc valid (bc (ix U i)) (ix valid j)).
Proof.
  split. { split; [apply zlen_map|]. intros r Hr. apply in_map_iff in Hr as (k & <- & _). apply zlen_map. }
  intros i j Hi Hj. unfold get2. rewrite znth_map_ix by exact Hi. cbn [bind]. rewrite znth_map_ix by exact Hj. reflexivity.
Qed.
Lemma update_ok C P lam V W PC : zlen lObs = lS -> sym_root nV lam V = Ok W -> rect nV nV W -> rmmul nV nV lS P C = Ok PC -> rect nV lS PC ->
  exists out, utem_update E lS valid lObs lYhat lY C P lam V ratio ex row crow = Ok out /\ zlen out = nE /\ (forall e, ~ In e valid -> znth out e = znth (map v2r row) e) /\
    forall e, 0 <= e < nV -> znth out (ix valid e) = Ok (radd (RF (qr (avg valid x))) (ufin W (uw PC) e)).
Proof.
  intros LO EW RW EPC RPC. unfold utem_update. rewrite EW, EPC. cbn [bind]. pose proof lS_pos as HS. pose proof nV_pos as Hn.
  rewrite (mapM_ok _ (uw PC)).
  2:{ intros e He. apply in_zrange in He. apply rsumM_fold. intros i Hi. rewrite (rg_ok _ _ _ e i RPC) by assumption. rewrite (vk_ok lObs) by lia. rewrite znth_map_ix by exact Hi. reflexivity. }
  cbn [bind]. rewrite (mapM_ok _ (fun e => Fin (x e)) valid) by exact Fx. cbn [bind]. rewrite (mapM_ok _ (fun e => Fin (xc e)) valid) by exact Fxc. cbn [bind].
  rewrite mean_avg by exact NEV. destruct (var_sdev E valid x NEV) as (v & -> & Ev). cbn [bind]. rewrite Ev. rewrite normed_ok by assumption. cbn [bind v2r]. rewrite map_map.
  match goal with |- context [foldM ?f _ _] => destruct (write_at valid (fun e => radd (RF (qr (avg valid x))) (ufin W (uw PC) e)) f (map v2r row) NDV) as (out & Eo & Eo1 & Eo2 & Eo3) end.
  { intros k Hk. rewrite zlen_map, LR. apply HV. exact Hk. }
  { intros a e He. rewrite (ix_ok valid e) by lia. cbn [bind]. rewrite znth_map_ix by lia. cbn [bind].
    rewrite (rsumM_fold nV _ (fun k => rmul (RF (zsc valid xc (ix valid k))) (radd (rmul (RF (sdev valid x)) (rg W k e)) (rmul (v2r ratio) (uw PC k))))).
    2:{ intros k Hk. rewrite znth_map_ix by lia. cbn [bind]. rewrite (rg_ok _ _ _ k e RW) by assumption. cbn [bind]. rewrite znth_map, znth_zrange by lia. reflexivity. }
    fold (uinc W (uw PC) e). cbn [bind]. unfold ufin. destruct ex; [reflexivity|]. unfold ens_incs. destruct (div_bounds e lS nV HS He) as [B1 B2]. unfold get2. rewrite znth_map_ix by exact B1. cbn [bind].
    rewrite znth_map_ix by exact B2. cbn [bind]. rewrite (mapM_ok _ (fun i => vsub (vk lObs i) (vadd (Fin (dev valid (b (ix U (e mod lS))) (ix valid (e / lS)))) (Fin (avg valid (b (ix U i))))))).
    2:{ intros i Hi. apply in_zrange in Hi. rewrite (vk_ok lObs) by lia. rewrite znth_map_ix by exact Hi. reflexivity. }
    cbn [bind]. fold (udep e). reflexivity. }
  exists out. split; [exact Eo|]. rewrite zlen_map in Eo1. split; [lia|]. split; [exact Eo3|exact Eo2].
Qed.
Lemma kept_row : zlen (map v2r row) = nE /\ forall e, ~ In e valid -> znth (map v2r row) e = znth (map v2r row) e.
Proof. rewrite zlen_map. auto. Qed.
Lemma ucore_total : zlen g = lS -> zlen ratios = lS -> zlen lObs = lS ->
  (exists out, run = Ok out /\ zlen out = nE /\ forall e, ~ In e valid -> znth out e = znth (map v2r row) e) \/
  (run = Throw RuntimeError /\ exists M, r_inv RL M = Throw RuntimeError).
Proof.
  intros Lg Ls Lo. unfold ucore. pose proof lS_pos as HS. pose proof nV_pos as Hn. destruct lYc_mat as [RY _].
  destruct (utem_c_rect lS nV g ratios lYc ltac:(lia) ltac:(lia) Lg Ls RY) as (C & EC & RC). rewrite EC. cbn [bind].
  destruct (utem_pinv_rect lS nV lYc ltac:(lia) C RC RY) as (M & EM & RM). rewrite EM. cbn [bind].
  destruct (rleb _ _). { left. eexists. split; [reflexivity|exact kept_row]. }
  destruct (ok_rinv_size _ HRL nV M Hn RM) as [(P & EP & RP)|ET].
  2:{ right. rewrite ET. split; [reflexivity|]. exists M. exact ET. }
  rewrite EP. cbn [bind].
  destruct (tab2_rect nV nV (fun i j => p <- get2 P i j ;; Ok (rmul (rz (nV - 1)) p)) ltac:(lia) ltac:(lia)) as (A & EA & RA).
  { intros i j Hi Hj. destruct (rect_get2 _ _ _ i j RP Hi Hj) as [v ->]. cbn [bind]. eauto. }
  rewrite EA. cbn [bind]. destruct (x_eig XL A) as [[lam V]|] eqn:EE.
  2:{ left. eexists. split; [reflexivity|exact kept_row]. }
  destruct (ok_xeig_size _ HXL nV A lam V Hn RA EE) as [Ll RV]. left.
  destruct (sym_root_total nV lam V ltac:(lia) Ll RV) as (W & EW & RW).
  destruct (rmmul_rect nV nV lS P C ltac:(lia) ltac:(lia) RP RC) as (PC & EPC & RPC).
  destruct (update_ok C P lam V W PC Lo EW RW EPC RPC) as (out & O1 & O2 & O3 & _). eauto.
Qed.

(** *** finite data *)
Variables (gg s o : Z -> Qc) (c0 : Qc).
Hypothesis NDU : NoDup U.
Hypothesis Fg : forall i, 0 <= i < lS -> znth g i = Ok (Fin (gg (ix U i))) /\ (0 < gg (ix U i))%Qc.
Hypothesis Fs : forall i, 0 <= i < lS -> znth ratios i = Ok (Fin (s (ix U i))) /\ (0 < s (ix U i))%Qc.
Hypothesis Fo : forall i, 0 <= i < lS -> znth lObs i = Ok (Fin (o (ix U i))).
Hypothesis Lo : zlen lObs = lS.
Hypothesis Fc : ratio = Fin c0.
Definition urin (k : Z) : R := qr (gg k / s k)%Qc.
Definition uY (k i : Z) : R := zsc valid (bc k) (ix valid i).
Definition ud (k : Z) : R := qr (o k - avg valid (b k))%Qc.
Notation pinv' := (rpinv U uY urin).
Notation MM := (IZR (nV - 1)).
Lemma MM_nonneg : (0 <= MM)%R. Proof. apply IZR_le. pose proof nV_pos. lia. Qed.
Lemma urin_pos k : In k U -> (0 < urin k)%R.
Proof.
  intros Hk. apply In_ix in Hk as (i & Hi & <-). destruct (Fg i Hi) as [_ P]. destruct (Fs i Hi) as [_ Q]. unfold urin. rewrite <- qr_0. apply qr_lt. unfold Qcdiv.
  rewrite <- (Qcmult_0_l (/ s (ix U i))%Qc). apply Qcmult_lt_compat_r; [apply inv_pos; exact Q|exact P].
Qed.
Definition usolved (P : Z -> Z -> R) (l : Z -> R) (v : Z -> Z -> R) : Prop :=
  (forall i j, In i I -> In j I -> rtot I (fun k => P i k * pinv' k j)%R = runit i j) /\
  (forall i j, In i I -> In j I -> rtot I (fun k => pinv' i k * P k j)%R = runit i j) /\
  (forall i j, In i I -> In j I -> rtot I (fun k => v k i * v k j)%R = runit i j) /\
  (forall i j, In i I -> In j I -> ramat P MM i j = rtot I (fun k => v i k * l k * v j k)%R).
Definition uincr (P : Z -> Z -> R) (l : Z -> R) (v : Z -> Z -> R) (e : Z) : R :=
  rtot I (fun k => zsc valid xc (ix valid k) * (sdev valid x * root nV v l k e + qr c0 * rwvec nV U uY urin P ud k))%R.
Definition udepf (e : Z) : list val := map (fun k => Fin (o k - (dev valid (b (ix U (e mod lS))) (ix valid (e / lS)) + avg valid (b k)))%Qc) U.
Lemma ucore_fin : (exists M P, rect nV nV M /\ (forall i j, 0 <= i < nV -> 0 <= j < nV -> get2 M i j = Ok (RF (MM * P i j))) /\
    (forall i j, In i I -> In j I -> rtot I (fun k => P i k * pinv' k j)%R = runit i j) /\ x_eig XL M = None /\ run = Ok (map v2r row)) \/
  exists P l v, usolved P l v /\ exists out, run = Ok out /\ zlen out = nE /\ (forall e, ~ In e valid -> znth out e = znth (map v2r row) e) /\
    forall e, 0 <= e < nV -> exists z, znth out (ix valid e) = Ok (RF (qr (avg valid x) + z)%R) /\
      (ex = true -> z = uincr P l v e) /\
      (ex = false -> RF z = ens_limit (RF (uincr P l v e)) (RF (qr (dev valid x (ix valid e)))) (v2r (amax (udepf e))) (v2r (amin (udepf e)))).
Proof.
  unfold ucore. pose proof lS_pos as HS. pose proof nV_pos as Hn.
  destruct (utem_c_ok lS nV g ratios lYc ltac:(lia) ltac:(lia) (fun i => gg (ix U i)) (fun i => s (ix U i)) (fun i j => uY (ix U i) j)) as (C & EC & MC).
  { intros i Hi. apply Fg. exact Hi. } { intros i Hi. destruct (Fs i Hi) as [F P]. split; [exact F|]. intros X. rewrite X in P. discriminate P. } { exact lYc_mat. }
  rewrite EC. cbn [bind]. destruct (utem_pinv_ok lS nV lYc ltac:(lia) C _ (fun i j => uY (ix U i) j) MC lYc_mat) as (M & EM & MM0). rewrite EM. cbn [bind].
  assert (MP0 : rentries nV M pinv').
  { destruct MM0 as [RM HM]. split; [exact RM|]. intros i j Hi Hj. rewrite HM by assumption. unfold rpinv. do 2 f_equal. f_equal. rewrite (rtot_ix U). reflexivity. }
  pose proof (rpinv_regular nV U uY urin urin_pos) as Hreg.
  destruct (rleb (x_rcond XL M) (rz 0)) eqn:EV. { exfalso. apply Hreg. apply (ok_xrcond _ HXL nV M pinv' Hn MP0). exact EV. }
  destruct (ok_rinv_size _ HRL nV M Hn (proj1 MP0)) as [(Pm & EP & RP)|ET].
  2:{ exfalso. apply Hreg. exact (ok_rinv_sing _ HRL nV M pinv' _ Hn MP0 ET). }
  rewrite EP. cbn [bind]. destruct (ok_rinv _ HRL nV M pinv' Pm Hn MP0 EP) as (P & MP & PL & PR).
  destruct (tab2_rmat nV nV (fun i j => p <- get2 Pm i j ;; Ok (rmul (rz (nV - 1)) p)) (ramat P MM) ltac:(lia) ltac:(lia)) as (A & EA & MA).
  { intros i j Hi Hj. destruct MP as [_ MP]. rewrite MP by assumption. reflexivity. }
  rewrite EA. cbn [bind].
  assert (PL' : forall i j, In i I -> In j I -> rtot I (fun k => P i k * pinv' k j)%R = runit i j) by (intros i j Hi Hj; apply in_zrange in Hi; apply in_zrange in Hj; apply PL; assumption).
  assert (PR' : forall i j, In i I -> In j I -> rtot I (fun k => pinv' i k * P k j)%R = runit i j) by (intros i j Hi Hj; apply in_zrange in Hi; apply in_zrange in Hj; apply PR; assumption).
  destruct (x_eig XL A) as [[lam V]|] eqn:EE.
  2:{ left. exists A, P. split; [apply MA|]. split; [apply MA|]. auto. }
  right. destruct (ok_xeig _ HXL nV A _ lam V Hn MA) as (l & v & Ll & El & RV & Ort & Dec); [|exact EE|].
  { intros i j Hi Hj. apply (ramat_sym nV U uY urin P PL'); apply in_zrange; assumption. }
  exists P, l, v.
  assert (Ort' : forall i j, In i I -> In j I -> rtot I (fun k => v k i * v k j)%R = runit i j) by (intros i j Hi Hj; apply in_zrange in Hi; apply in_zrange in Hj; apply Ort; assumption).
  assert (Dec' : forall i j, In i I -> In j I -> ramat P MM i j = rtot I (fun k => v i k * l k * v j k)%R) by (intros i j Hi Hj; apply in_zrange in Hi; apply in_zrange in Hj; apply Dec; assumption).
  split; [repeat split; assumption|].
  pose proof (ramat_psd nV U uY urin urin_pos P PR' MM MM_nonneg) as Psd.
  destruct (sym_root_ok nV lam V l v ltac:(lia)) as (W & EW & RW).
  { intros i Hi. split; [apply El; exact Hi|]. apply (eig_nonneg nV (ramat P MM) v l Ort' Dec' Psd). apply in_zrange. exact Hi. }
  { exact RV. }
  destruct (rmmul_ok nV nV lS Pm C P _ ltac:(lia) ltac:(lia) MP MC) as (PC & EPC & MPC).
  destruct (update_ok C Pm lam V W PC Lo EW (proj1 RW) EPC (proj1 MPC)) as (out & O1 & O2 & O3 & O4).
  exists out. split; [exact O1|]. split; [exact O2|]. split; [exact O3|]. intros e He. rewrite O4 by exact He.
  assert (Ew : forall k, 0 <= k < nV -> uw PC k = RF (rwvec nV U uY urin P ud k)).
  { intros k Hk. unfold uw. rewrite (rfold_RF lS _ (fun i => rtot I (fun j => P k j * (uY (ix U i) j * urin (ix U i))) * ud (ix U i))%R).
    - f_equal. unfold rwvec, rpsol. rewrite <- (rtot_ix U (fun u => rtot I (fun j => P k j * (uY u j * urin u)) * ud u)%R).
      rewrite (rtot_ext U _ (fun u => rtot I (fun j => P k j * (uY u j * urin u * ud u)))%R).
      + rewrite rtot_swap. apply rtot_ext. intros j _. rewrite rtot_mul_l. reflexivity.
      + intros u _. rewrite <- rtot_mul_r. apply rtot_ext. intros. ring.
    - intros i Hi. unfold rg. destruct MPC as [_ ->]; try assumption. unfold vk. rewrite Fo by exact Hi. reflexivity. }
  assert (Ei : uinc W (uw PC) e = RF (uincr P l v e)).
  { apply rfold_RF. intros k Hk. rewrite Ew by exact Hk. unfold rg. destruct RW as [_ ->]; try assumption. rewrite Fc. reflexivity. }
  assert (Ed : udep e = udepf e).
  { unfold udep, udepf. rewrite (map_ix (fun k => Fin (o k - (dev valid (b (ix U (e mod lS))) (ix valid (e / lS)) + avg valid (b k)))%Qc) U). apply map_ext_in. intros i Hi. apply in_zrange in Hi.
    unfold vk. rewrite Fo by exact Hi. reflexivity. }
  unfold ufin. rewrite Ei, Ed. destruct ex eqn:Eex.
  - exists (uincr P l v e). split; [reflexivity|]. split; [reflexivity|discriminate].
  - unfold udepf. destruct (amax_ok (fun k => o k - (dev valid (b (ix U (e mod lS))) (ix valid (e / lS)) + avg valid (b k)))%Qc U NEU) as (hi & Ehi & _).
    destruct (amin_ok (fun k => o k - (dev valid (b (ix U (e mod lS))) (ix valid (e / lS)) + avg valid (b k)))%Qc U NEU) as (lo & Elo & _).
    rewrite Ehi, Elo. cbn [v2r].
    assert (K : exists z, ens_limit (RF (uincr P l v e)) (RF (qr (dev valid x (ix valid e)))) (RF (qr hi)) (RF (qr lo)) = RF z).
    { unfold ens_limit. destruct (_ && _)%bool; [eexists; reflexivity|]. destruct (_ && _)%bool; [eexists; reflexivity|]. destruct (_ && _)%bool; [eexists; reflexivity|]. destruct (_ && _)%bool; eexists; reflexivity. }
    destruct K as [z Ez]. exists z. rewrite Ez. split; [reflexivity|]. split; [discriminate|reflexivity].
Qed.
End Core.
