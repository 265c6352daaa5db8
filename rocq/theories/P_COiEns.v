(** The ensemble mode of the client's optimal interpolation: what is computed at a point. *)
From Coq Require Import Lra.
From Verif Require Import Base QcTac ListLib RBase P_RBase M_Geo S_Geo M_Stat M_OI S_OI P_OISum P_OI P_OISolve P_OITotal M_EnsMulti M_Ensi P_EnsSel P_EnsMulti S_EnsMulti S_Ensi P_RSum P_EnsiAlg P_EnsiCell M_COpt M_CUtil S_CUtil M_CCal S_CCal M_COi S_COi M_COiEns S_COiEns.
Local Open Scope Z_scope.

Section Mats.
Variables (lS nV : Z) (sg dl : Qc) (rhos ci : vec) (lY : vec2).
Hypothesis HlS : 0 <= lS.
Hypothesis HnV : 0 <= nV.
Lemma oe_c_ok gg c y : sg <> 0%Qc -> (forall i, 0 <= i < lS -> znth rhos i = Ok (Fin (gg i))) -> (forall i, 0 <= i < lS -> znth ci i = Ok (Fin (c i)) /\ (0 < c i)%Qc) ->
  mat lS nV lY y -> exists C, oe_c lS nV (Fin sg) rhos ci lY = Ok C /\ mat nV lS C (fun e i => y i e * (gg i / (sg * sg * c i)))%Qc.
Proof.
  intros Hs Hg Hc MY. unfold oe_c.
  destruct (tab2_mat lS lS (fun i j => if i =? j then r <- znth rhos i ;; c <- znth ci i ;; Ok (vdiv r (vmul (vmul (Fin sg) (Fin sg)) c)) else Ok (fz 0)) (fun i j => (gg i / (sg * sg * c i)) * unit_ i j)%Qc) as (Ri & ERi & RRi); try assumption.
  { intros i j Hi Hj. unfold unit_. destruct (i =? j).
    - destruct (Hc i Hi) as [-> Nz]. rewrite Hg by exact Hi. cbn [bind]. rewrite !vmul_fin, vdiv_ok. { do 2 f_equal. ring. }
      intros E. apply Qcmult_integral in E as [E|E]; [apply Qcmult_integral in E; tauto|]. rewrite E in Nz. discriminate Nz.
    - rewrite fz0. do 2 f_equal. ring. }
  rewrite ERi. cbn [bind]. destruct (transp_ok lS nV lY y HlS HnV MY) as (T & ET & RT). rewrite ET. cbn [bind].
  destruct (mmul_ok nV lS lS _ _ _ _ HnV HlS RT RRi) as (C & EC & MC). exists C. split; [exact EC|]. eapply mat_ext; [exact MC|].
  intros e i He Hi. cbn beta. rewrite (tot_ext _ _ (fun l => (y l e * (gg l / (sg * sg * c l))) * unit_ l i)%Qc) by (intros; ring).
  apply tot_delta; [apply NoDup_zrange|apply in_zrange; exact Hi].
Qed.
Lemma oe_pinv_ok C c y : (0 < dl)%Qc -> mat nV lS C c -> mat lS nV lY y ->
  exists M, oe_pinv lS nV (Fin dl) C lY = Ok M /\ mat nV nV M (fun i j => tot (zrange 0 lS) (fun l => c i l * y l j) + (1 / dl * qz (nV - 1)) * unit_ i j)%Qc.
Proof.
  intros Hd RC RY. unfold oe_pinv. destruct (mmul_ok nV lS nV C lY _ _ HnV HnV RC RY) as (CY & E & [_ R]). rewrite E. cbn [bind].
  assert (Nd : dl <> 0%Qc) by (intros E0; rewrite E0 in Hd; discriminate Hd).
  change (fz 1) with (Fin 1%Qc). rewrite vdiv_ok by exact Nd. change (fz (nV - 1)) with (Fin (qz (nV - 1))). rewrite vmul_fin.
  apply tab2_mat; try assumption. intros i j Hi Hj. rewrite R by assumption. cbn [bind]. unfold unit_. destruct (i =? j); reflexivity.
Qed.
End Mats.

(** *** the computation once the values at the stations are known *)
Definition ecore (inv : vec2 -> res vec2) (EL : elib) (eo : ens_options) (members : list Z) (lS : Z) (rhos ci lObs lYhat : vec) (lY : vec2) (row : vec) (out : list rv) : res (list rv) :=
  let nV := zlen members in
  C <- oe_c lS nV (en_sigma eo) rhos ci lY ;;
  Pinv <- oe_pinv lS nV (en_delta eo) C lY ;;
  if vleb (e_rcond EL Pinv) (fz 0) then Ok (map v2r row) else
  P <- omp (inv Pinv) ;;
  A <- tab2 nV nV (fun i j => p <- get2 P i j ;; Ok (vmul (fz (nV - 1)) p)) ;;
  match e_eig EL A with
  | None => Ok (map v2r row)
  | Some (lam, V) => oe_update eo lS members lObs lYhat lY C P lam V row out
  end.

Section Core.
Variables (L : lib) (EL : elib) (eo : ens_options) (valid : list Z) (lS nE : Z) (rhos ci lObs lYhat : vec) (lY : vec2) (row : vec) (out0 : list rv).
Hypothesis HLib : lib_ok L.
Hypothesis HE : elib_ok EL.
Hypothesis HlS : 0 < lS.
Hypothesis NDV : NoDup valid.
Hypothesis HV : forall e, In e valid -> 0 <= e < nE.
Hypothesis LR : zlen row = nE.
Hypothesis LO : zlen out0 = nE.
Let nV := zlen valid.
Notation run := (ecore (l_inv L) EL eo valid lS rhos ci lObs lYhat lY row out0).
Variables (U : list Z) (Y : Z -> Z -> Qc) (sg dl : Qc) (gg cc o h : Z -> Qc) (xx : Z -> Qc).
Hypothesis HU : zlen U = lS.
Hypothesis Hn2 : 2 <= nV.
Hypothesis Esg : en_sigma eo = Fin sg.
Hypothesis Nsg : sg <> 0%Qc.
Hypothesis Edl : en_delta eo = Fin dl.
Hypothesis Pdl : (0 < dl)%Qc.
Hypothesis Fg : forall i, 0 <= i < lS -> znth rhos i = Ok (Fin (gg (ix U i))) /\ (0 < gg (ix U i))%Qc.
Hypothesis Fc : forall i, 0 <= i < lS -> znth ci i = Ok (Fin (cc (ix U i))) /\ (0 < cc (ix U i))%Qc.
Hypothesis Fo : forall i, 0 <= i < lS -> znth lObs i = Ok (Fin (o (ix U i))).
Hypothesis Fh : forall i, 0 <= i < lS -> znth lYhat i = Ok (Fin (h (ix U i))).
Hypothesis FY : mat lS nV lY (fun i e => Y (ix U i) e).
Hypothesis Fx : forall i, 0 <= i < nV -> znth row (ix valid i) = Ok (Fin (xx i)).
Definition erin (k : Z) : Qc := (gg k / (sg * sg * cc k))%Qc.
Notation I := (zrange 0 nV).
Definition eN : Qc := (1 / dl * qz (nV - 1))%Qc.
Notation NN := (qz (nV - 1)).
Notation pinv' := (pinv U Y erin eN).
Notation d := (fun k => o k - h k)%Qc.
Definition exb : Qc := (tot I xx / qz nV)%Qc.
Definition exd (i : Z) : Qc := (xx i - exb)%Qc.
Lemma dl_nz : dl <> 0%Qc. Proof. intros E. rewrite E in Pdl. discriminate Pdl. Qed.
Lemma mul_pos (a b : Qc) : (0 < a -> 0 < b -> 0 < a * b)%Qc.
Proof. intros Ha Hb. rewrite <- (Qcmult_0_l b). apply Qcmult_lt_compat_r; assumption. Qed.
Lemma eN_pos : (0 < eN)%Qc.
Proof. unfold eN, Qcdiv. rewrite Qcmult_1_l. apply mul_pos; [apply inv_pos; exact Pdl|apply qz_pos; lia]. Qed.
Lemma eN_NN : (dl * eN)%Qc = NN.
Proof. unfold eN. field. exact dl_nz. Qed.
Lemma sq_pos (a : Qc) : a <> 0%Qc -> (0 < a * a)%Qc.
Proof. intros N. destruct (Qcle_lt_or_eq _ _ (sq_nonneg a)) as [H|H]; [exact H|]. exfalso. apply N. apply sq_zero. auto. Qed.
Lemma erin_pos k : In k U -> (0 < erin k)%Qc.
Proof.
  intros Hk. apply In_ix in Hk as (i & Hi & <-). rewrite HU in Hi. destruct (Fg i Hi) as [_ P]. destruct (Fc i Hi) as [_ Pc]. unfold erin, Qcdiv.
  apply mul_pos; [exact P|]. apply inv_pos. apply mul_pos; [apply sq_pos; exact Nsg|exact Pc].
Qed.
Definition esolved (P : Z -> Z -> Qc) (l : Z -> R) (v : Z -> Z -> R) : Prop :=
  (forall i j, In i I -> In j I -> tot I (fun k => P i k * pinv' k j)%Qc = unit_ i j) /\
  (forall i j, In i I -> In j I -> tot I (fun k => pinv' i k * P k j)%Qc = unit_ i j) /\
  (forall i j, In i I -> In j I -> rtot I (fun k => v k i * v k j)%R = runit i j) /\
  (forall i j, In i I -> In j I -> qr (amat NN P i j) = rtot I (fun k => v i k * l k * v j k)%R) /\ forall i, In i I -> (0 <= l i)%R.
Definition eincr (P : Z -> Z -> Qc) (l : Z -> R) (v : Z -> Z -> R) (e : Z) : R :=
  rtot I (fun k => qr (exd k) * (root nV v l k e + qr (wvec nV U Y erin P d k)))%R.
Definition estdep (e : Z) : list val := map (fun k => Fin (o k - (Y (ix U (e mod lS)) (e / lS) + h k))%Qc) U.

Lemma epinv_ok C : mat nV lS C (fun e i => Y (ix U i) e * erin (ix U i))%Qc -> exists M, oe_pinv lS nV (Fin dl) C lY = Ok M /\ entries nV M pinv'.
Proof.
  intros MC. destruct (oe_pinv_ok lS nV dl lY ltac:(lia) C _ _ Pdl MC FY) as (M & EM & MM). exists M. split; [exact EM|].
  eapply mat_ext; [exact MM|]. intros i j Hi Hj. cbn beta. unfold pinv. f_equal. rewrite (tot_ix U), HU. reflexivity.
Qed.
Lemma amat_scale P i j : amat NN P i j = (dl * amat eN P i j)%Qc.
Proof. unfold amat. rewrite <- eN_NN. ring. Qed.
Lemma efold_mean : forall l acc, (forall i, In i l -> 0 <= i < nV) -> fold_left vadd (map (fun i => Fin (xx i)) l) (Fin acc) = Fin (acc + tot l xx)%Qc.
Proof.
  induction l as [|i l IH]; intros acc Hl; cbn [map fold_left]. { unfold tot; cbn. f_equal. ring. }
  cbn [vadd]. rewrite IH by (intros; apply Hl; right; assumption). rewrite tot_cons. f_equal. ring.
Qed.
Lemma ecore_fin : (exists M A, entries nV M A /\ (forall i j, In i I -> In j I -> tot I (fun k => A i k * (pinv' k j / NN))%Qc = unit_ i j) /\ e_eig EL M = None /\
    run = Ok (map v2r row)) \/
  exists P l v, esolved P l v /\ exists out, run = Ok out /\ zlen out = nE /\ (forall e, ~ In e valid -> znth out e = znth out0 e) /\
    forall e, 0 <= e < nV -> exists z, znth out (ix valid e) = Ok (RF (if en_savediff eo then z else (qr exb + z)%R)) /\
      (en_savediff eo = true \/ en_extrapolate eo = true -> z = eincr P l v e) /\
      (en_savediff eo = false -> en_extrapolate eo = false -> RF z = oe_limit (RF (eincr P l v e)) (RF (qr (exd e))) (v2r (amax (estdep e))) (v2r (amin (estdep e)))).
Proof.
  unfold ecore. fold nV. rewrite Esg, Edl.
  destruct (oe_c_ok lS nV sg rhos ci lY ltac:(lia) ltac:(lia) (fun i => gg (ix U i)) (fun i => cc (ix U i)) (fun i e => Y (ix U i) e) Nsg) as (C & EC & MC).
  { intros i Hi. apply Fg. exact Hi. } { intros i Hi. apply Fc. exact Hi. } { exact FY. }
  rewrite EC. cbn [bind]. destruct (epinv_ok C MC) as (M & EM & MM). rewrite EM. cbn [bind].
  assert (Hreg : ~ singular nV pinv') by (apply pinv_regular; [exact eN_pos|exact erin_pos]).
  destruct (vleb (e_rcond EL M) (fz 0)) eqn:EV. { exfalso. apply Hreg. apply (ok_rcond _ HE nV M pinv' ltac:(lia) MM). exact EV. }
  destruct (ok_inv_size _ HLib nV M ltac:(lia) (proj1 MM)) as [(Pm & EP & RP)|ET].
  2:{ exfalso. apply Hreg. exact (ok_inv_sing _ HLib nV M pinv' _ ltac:(lia) MM ET). }
  rewrite EP. cbn [omp bind]. destruct (ok_inv _ HLib nV M pinv' Pm ltac:(lia) MM EP) as (P & MP & PL & PR).
  destruct (tab2_mat nV nV (fun i j => p <- get2 Pm i j ;; Ok (vmul (fz (nV - 1)) p)) (amat NN P) ltac:(lia) ltac:(lia)) as (A & EA & MA).
  { intros i j Hi Hj. destruct MP as [_ MP]. rewrite MP by assumption. reflexivity. }
  rewrite EA. cbn [bind].
  assert (PL' : forall i j, In i I -> In j I -> tot I (fun k => P i k * pinv' k j)%Qc = unit_ i j) by (intros i j Hi Hj; apply in_zrange in Hi; apply in_zrange in Hj; apply PL; assumption).
  assert (PR' : forall i j, In i I -> In j I -> tot I (fun k => pinv' i k * P k j)%Qc = unit_ i j) by (intros i j Hi Hj; apply in_zrange in Hi; apply in_zrange in Hj; apply PR; assumption).
  assert (Sy : symmetric nV (amat NN P)).
  { intros i j Hi Hj. rewrite !amat_scale. f_equal. eapply amat_sym; eassumption. }
  destruct (e_eig EL A) as [[lam V]|] eqn:EE.
  2:{ left. exists A, (amat NN P). split; [exact MA|]. split; [|auto]. intros i j Hi Hj. rewrite <- (PL' i j Hi Hj). apply tot_ext. intros k _. unfold amat. field.
      apply qz_neq0. lia. }
  right. destruct (ok_eig _ HE nV A _ lam V ltac:(lia) MA Sy EE) as (l & v & Ll & El & RV & Ort & Dec).
  exists P, l, v.
  assert (Ort' : forall i j, In i I -> In j I -> rtot I (fun k => v k i * v k j)%R = runit i j) by (intros i j Hi Hj; apply in_zrange in Hi; apply in_zrange in Hj; apply Ort; assumption).
  assert (Dec' : forall i j, In i I -> In j I -> qr (amat NN P i j) = rtot I (fun k => v i k * l k * v j k)%R) by (intros i j Hi Hj; apply in_zrange in Hi; apply in_zrange in Hj; apply Dec; assumption).
  assert (Psd : forall c, (0 <= rtot I (fun i => c i * rtot I (fun j => qr (amat NN P i j) * c j)))%R).
  { intros c. rewrite (rtot_ext _ _ (fun i => qr dl * (c i * rtot I (fun j => qr (amat eN P i j) * c j)))%R).
    - rewrite rtot_mul_l. apply Rmult_le_pos; [pose proof (qr_lt 0 dl Pdl) as H; rewrite qr_0 in H; lra|]. apply (amat_psd nV U Y erin eN eN_pos erin_pos P PR').
    - intros i _. rewrite (rtot_ext _ (fun j => qr (amat NN P i j) * c j)%R (fun j => qr dl * (qr (amat eN P i j) * c j))%R); [rewrite rtot_mul_l; ring|].
      intros j _. rewrite amat_scale, qr_mul. ring. }
  assert (Pos : forall i, In i I -> (0 <= l i)%R) by (intros i Hi; apply (eig_nonneg nV (fun i j => qr (amat NN P i j)) v l Ort' Dec' Psd); exact Hi).
  split; [repeat split; assumption|].
  unfold oe_update. fold nV.
  destruct (sym_root_ok nV lam V l v ltac:(lia)) as (W & EW & RW).
  { intros i Hi. split; [apply El; exact Hi|]. apply Pos. apply in_zrange. exact Hi. }
  { exact RV. }
  rewrite EW. cbn [bind].
  destruct (mmul_ok nV nV lS Pm C P _ ltac:(lia) ltac:(lia) MP MC) as (PC & EPC & MPC). rewrite EPC. cbn [bind].
  rewrite (mapM_ok _ (fun e => Fin (wvec nV U Y erin P d e))).
  2:{ intros e He. apply in_zrange in He. rewrite (vsumM_ok lS _ (fun i => tot I (fun j => P e j * (Y (ix U i) j * erin (ix U i))) * d (ix U i))%Qc).
      - do 2 f_equal. unfold wvec, psol. rewrite <- HU. rewrite <- (tot_ix U (fun k => tot I (fun j => P e j * (Y k j * erin k)) * d k)%Qc).
        rewrite (tot_ext U _ (fun k => tot I (fun j => P e j * (Y k j * erin k * d k)))%Qc).
        + rewrite tot_swap. apply tot_ext. intros j _. rewrite tot_mul_l. reflexivity.
        + intros k _. rewrite <- tot_mul_r. apply tot_ext. intros. ring.
      - intros i Hi. destruct MPC as [_ ->]; try assumption. rewrite Fo, Fh by exact Hi. reflexivity. }
  cbn [bind].
  assert (Exs : mapM (fun ei => znth row ei) valid = Ok (map (fun i => Fin (xx i)) I)).
  { rewrite (mapM_ok _ (vk row)) by (intros e He; apply vk_ok; rewrite LR; apply HV; exact He). f_equal. rewrite (map_ix (vk row) valid). apply map_ext_in.
    intros i Hi. apply in_zrange in Hi. unfold vk. rewrite Fx by exact Hi. reflexivity. }
  rewrite Exs. cbn [bind]. rewrite fz0, efold_mean by (intros i Hi; apply in_zrange in Hi; exact Hi).
  assert (Hq : qz nV <> 0%Qc) by (apply qz_neq0; lia).
  change (fz nV) with (Fin (qz nV)). rewrite vdiv_ok by exact Hq. replace ((0 + tot I xx) / qz nV)%Qc with exb by (unfold exb; rewrite Qcplus_0_l; reflexivity).
  rewrite map_map. cbn [v2r].
  assert (Ex : map (fun x => vsub (Fin (xx x)) (Fin exb)) I = map (fun i => Fin (exd i)) I) by (apply map_ext; reflexivity). rewrite Ex.
  assert (Zx : forall k, 0 <= k < nV -> znth (map (fun i => Fin (exd i)) I) k = Ok (Fin (exd k))) by (intros k Hk; rewrite znth_map, znth_zrange by lia; reflexivity).
  assert (Zw : forall k, 0 <= k < nV -> znth (map (fun e => Fin (wvec nV U Y erin P d e)) I) k = Ok (Fin (wvec nV U Y erin P d k))) by (intros k Hk; rewrite znth_map, znth_zrange by lia; reflexivity).
  set (lim := fun e => if en_extrapolate eo then RF (eincr P l v e) else oe_limit (RF (eincr P l v e)) (RF (qr (exd e))) (v2r (amax (estdep e))) (v2r (amin (estdep e)))).
  match goal with |- exists out, foldM ?step _ _ = _ /\ _ => destruct (write_at valid (fun e => if en_savediff eo then RF (eincr P l v e) else radd (RF (qr exb)) (lim e)) step out0 NDV) as (out & E & El' & E1 & E2) end.
  { intros k Hk. rewrite LO. apply HV. exact Hk. }
  { intros a e He. fold nV in He. rewrite (ix_ok valid e) by (unfold nV in *; lia). cbn [bind]. rewrite Zx by exact He. cbn [bind].
    rewrite (rsumM_ok nV _ (fun k => qr (exd k) * (root nV v l k e + qr (wvec nV U Y erin P d k)))%R).
    2:{ intros k Hk. rewrite Zx, Zw by exact Hk. destruct RW as [_ RW]. rewrite RW by assumption. reflexivity. }
    cbn [bind]. fold (eincr P l v e). destruct (en_savediff eo); [reflexivity|]. unfold lim. destruct (en_extrapolate eo); [reflexivity|]. unfold oe_incs.
    destruct (div_bounds e lS nV HlS He) as [B1 B2]. destruct FY as [_ FY']. rewrite FY' by assumption. cbn [bind].
    assert (Ed : mapM (fun i => o <- znth lObs i ;; h <- znth lYhat i ;; Ok (vsub o (vadd (Fin (Y (ix U (e mod lS)) (e / lS))) h))) (zrange 0 lS) = Ok (estdep e)).
    { unfold estdep. rewrite (map_ix (fun k => Fin (o k - (Y (ix U (e mod lS)) (e / lS) + h k))%Qc) U), HU. apply mapM_ok. intros i Hi. apply in_zrange in Hi.
      rewrite Fo, Fh by exact Hi. reflexivity. }
    rewrite Ed. cbn [bind v2r]. reflexivity. }
  exists out. split; [exact E|]. split; [lia|]. split; [exact E2|]. intros e He. rewrite E1 by exact He.
  destruct (en_savediff eo) eqn:Esd. { exists (eincr P l v e). split; [reflexivity|]. split; [reflexivity|discriminate]. }
  unfold lim. destruct (en_extrapolate eo) eqn:Eex.
  - exists (eincr P l v e). split; [reflexivity|]. split; [reflexivity|discriminate].
  - assert (NU : U <> []) by (intros N; rewrite N, zlen_nil in HU; lia).
    destruct (amax_ok (fun k => o k - (Y (ix U (e mod lS)) (e / lS) + h k))%Qc U NU) as (hi & Ehi & _). destruct (amin_ok (fun k => o k - (Y (ix U (e mod lS)) (e / lS) + h k))%Qc U NU) as (lo & Elo & _).
    unfold estdep. rewrite Ehi, Elo. cbn [v2r].
    assert (K : exists z, oe_limit (RF (eincr P l v e)) (RF (qr (exd e))) (RF (qr hi)) (RF (qr lo)) = RF z).
    { unfold oe_limit. destruct (_ && _)%bool; [eexists; reflexivity|]. destruct (_ && _)%bool; [eexists; reflexivity|]. destruct (_ && _)%bool; [eexists; reflexivity|]. destruct (_ && _)%bool; eexists; reflexivity. }
    destruct K as [z Ez]. exists z. rewrite Ez. split; [reflexivity|]. split; [intros [H|H]; discriminate H|reflexivity].
Qed.
End Core.
