(** The ensemble mode of the client's optimal interpolation: two members, and the theorems. *)
From Coq Require Import Lra.
From Verif Require P_Ensi.
From Verif Require Import Base QcTac ListLib RBase P_RBase M_Geo S_Geo M_Stat S_Stat M_OI S_OI P_OISum P_OI P_OIInv P_OIRef M_Ensi S_EnsMulti S_Ensi P_RSum P_EnsiAlg P_EnsiCell P_EnsiSpec P_EnsiRoot P_EnsiWit P_EnsiFin M_COpt M_CUtil S_CUtil P_CUtil M_CCal S_CCal P_CCal M_CTree S_CTree P_Bilin P_CDown P_CDist P_CDistEx M_CKrig S_CKrig P_CKrig P_CKrigEx M_COi S_COi P_COi P_COi2 P_COiEx M_COiEns S_COiEns P_COiEns P_COiEns2 P_COiEns3.
Local Open Scope Z_scope.

Section Two.
Variables (eo : ens_options) (valid : list Z) (lS nE : Z) (rhos ci lObs lYhat : vec) (lY : vec2) (row : vec) (out0 : list rv).
Hypothesis HlS : 0 < lS.
Hypothesis NDV : NoDup valid.
Hypothesis HV : forall e, In e valid -> 0 <= e < nE.
Hypothesis LR : zlen row = nE.
Hypothesis LO : zlen out0 = nE.
Hypothesis NV : zlen valid = 2.
Variables (U : list Z) (Y : Z -> Z -> Qc) (sg : Qc) (gg cc o h : Z -> Qc) (xx : Z -> Qc).
Hypothesis HU : zlen U = lS.
Hypothesis Esg : en_sigma eo = Fin sg.
Hypothesis Nsg : sg <> 0%Qc.
Hypothesis Edl : en_delta eo = Fin 1%Qc.
Hypothesis Fg : forall i, 0 <= i < lS -> znth rhos i = Ok (Fin (gg (ix U i))) /\ (0 < gg (ix U i))%Qc.
Hypothesis Fc : forall i, 0 <= i < lS -> znth ci i = Ok (Fin (cc (ix U i))) /\ (0 < cc (ix U i))%Qc.
Hypothesis Fo : forall i, 0 <= i < lS -> znth lObs i = Ok (Fin (o (ix U i))).
Hypothesis Fh : forall i, 0 <= i < lS -> znth lYhat i = Ok (Fin (h (ix U i))).
Hypothesis FY : mat lS 2 lY (fun i e => Y (ix U i) e).
Hypothesis Fx : forall i, 0 <= i < 2 -> znth row (ix valid i) = Ok (Fin (xx i)).
Notation I := (zrange 0 2).
Notation rin := (erin sg gg cc).
Notation pinv' := (pinv U Y rin 1%Qc).
Notation d := (fun k => o k - h k)%Qc.
Variables P0 W0 : Z -> Z -> Qc.
Hypothesis HP0 : forall i j, In i I -> In j I -> tot I (fun k => P0 i k * pinv' k j)%Qc = unit_ i j.
Hypothesis SP : P0 0 1 = P0 1 0.
Hypothesis SW : W0 0 1 = W0 1 0.
Hypothesis PW : forall c0 c1, (0 <= qr (W0 0 0) * (c0 * c0) + 2 * qr (W0 0 1) * (c0 * c1) + qr (W0 1 1) * (c1 * c1))%R.
Hypothesis QW : forall i j, In i I -> In j I -> tot I (fun k => W0 i k * W0 k j)%Qc = P0 i j.
Definition einc0 (e : Z) : Qc := tot I (fun k => (xx k - tot I xx / qz 2) * (W0 k e + wvec 2 U Y rin P0 d k))%Qc.
Notation run := (ecore (l_inv L0) EL0 eo valid lS rhos ci lObs lYhat lY row out0).
Lemma ecore_two : exists out, run = Ok out /\ zlen out = nE /\ (forall e, ~ In e valid -> znth out e = znth out0 e) /\
  forall e, 0 <= e < 2 -> exists z, znth out (ix valid e) = Ok (RF (if en_savediff eo then z else qr (tot I xx / qz 2) + z)%R) /\
    (en_savediff eo = true \/ en_extrapolate eo = true -> z = qr (einc0 e)) /\
    (en_savediff eo = false -> en_extrapolate eo = false -> RF z = ens_limit (RF (qr (einc0 e))) (RF (qr (xx e - tot I xx / qz 2)%Qc)) (v2r (amax (estdep lS U Y o h e))) (v2r (amin (estdep lS U Y o h e)))).
Proof.
  pose proof (ecore_fin L0 EL0 eo valid lS nE rhos ci lObs lYhat lY row out0 lib_ok_L0 elib_ok_EL0 HlS NDV HV LR LO U Y sg 1%Qc gg cc o h xx HU) as CF.
  assert (EN : eN valid 1%Qc = 1%Qc) by (unfold eN; rewrite NV; apply Qc_is_canon; reflexivity).
  rewrite EN, NV in CF. change (qz (2 - 1)) with 1%Qc in CF.
  destruct (CF ltac:(lia) Esg Nsg Edl ltac:(reflexivity) Fg Fc Fo Fh FY Fx) as [(M & A & EA & IA & EE & _)|(P & l & v & HS & out & Er & L1 & L2 & L3)].
  { exfalso.
    assert (IA' : forall i j, In i I -> In j I -> tot I (fun k => A i k * pinv' k j)%Qc = unit_ i j).
    { intros i j Hi Hj. rewrite <- (IA i j Hi Hj). apply tot_ext. intros k _. field. discriminate. }
    assert (R0 : forall i j, In i I -> In j I -> tot I (fun k => pinv' i k * P0 k j)%Qc = unit_ i j).
    { intros i j Hi Hj. apply in_zrange in Hi, Hj. apply (left_right 2 pinv' P0); try lia. intros i' j' Hi' Hj'. apply HP0; apply in_zrange; assumption. }
    apply (eig0_sym M A EA); [|exact EE].
    rewrite (inv_uniq I A P0 pinv' (NoDup_zrange 0 2) IA' R0 0 1), (inv_uniq I A P0 pinv' (NoDup_zrange 0 2) IA' R0 1 0) by (apply in_zrange; lia). exact SP. }
  exists out. split; [exact Er|]. split; [exact L1|]. split; [exact L2|].
  destruct HS as (PL & PR & Ort & Dec & Ln). rewrite EN, NV in PL, PR. rewrite NV in Ort, Dec, Ln. change (qz (2 - 1)) with 1%Qc in Dec.
  assert (EP : forall i j, In i I -> In j I -> P i j = P0 i j).
  { intros i j Hi Hj. symmetry. exact (inv_uniq I P0 P pinv' (NoDup_zrange 0 2) HP0 PR i j Hi Hj). }
  assert (SW' : forall i j, In i I -> In j I -> W0 i j = W0 j i).
  { intros i j Hi Hj. apply in_zrange in Hi, Hj. assert (i = 0 \/ i = 1) as [-> | ->] by lia; assert (j = 0 \/ j = 1) as [-> | ->] by lia; auto. }
  assert (Psd : forall c, (0 <= rtot I (fun i => c i * rtot I (fun j => qr (amat 1%Qc P i j) * c j)))%R).
  { assert (HN1 : (0 < 1)%Qc) by reflexivity. assert (Rp : forall k, In k U -> (0 < rin k)%Qc). { intros k Hk. eapply erin_pos; eauto. }
    apply (amat_psd 2 U Y rin 1%Qc HN1 Rp P PR). }
  assert (EW : forall i j, In i I -> In j I -> root 2 v l i j = qr (W0 i j)).
  { apply (sqrt_unique I (root 2 v l) (fun i j => qr (W0 i j))).
    - split; [intros; apply root_sym|]. intros c. apply root_psd.
    - split; [intros e f He Hf; cbn beta; rewrite (SW' e f He Hf); reflexivity|]. intros c. rewrite rtot2, !rtot2. rewrite <- SW.
      pose proof (PW (c 0) (c 1)) as H. nra.
    - intros i j Hi Hj.
      transitivity (qr (amat 1%Qc P i j)).
      + exact (root_sq 2 (fun i j => qr (amat 1%Qc P i j)) v l Ort Dec Psd i j Hi Hj).
      + unfold amat. rewrite Qcmult_1_l, EP by assumption. rewrite <- QW by assumption. rewrite qr_tot. apply rtot_ext. intros k _. apply qr_mul. }
  assert (Ew : forall k, In k I -> wvec 2 U Y rin P d k = wvec 2 U Y rin P0 d k).
  { intros k Hk. unfold wvec. apply tot_ext. intros j Hj. rewrite EP by assumption. reflexivity. }
  intros e He. destruct (L3 e He) as (z & Ez & Z1 & Z2). unfold exb in Ez. rewrite NV in Ez. exists z. split; [exact Ez|].
  assert (Ei : eincr valid U Y sg gg cc o h xx P l v e = qr (einc0 e)).
  { unfold eincr, einc0. rewrite NV. rewrite qr_tot. apply rtot_ext. intros k Hk. unfold exd, exb. rewrite NV, qr_mul, qr_add, EW, Ew by (try assumption; apply in_zrange; lia). reflexivity. }
  rewrite Ei in Z1, Z2. unfold exd, exb in Z2. rewrite NV in Z2. auto.
Qed.
End Two.
Lemma row_core inv EL radar eo ss back sel members row out ls lb lY : mapM (fun p => znth ss (snd p)) sel = Ok ls -> mapM (fun p => znth back (snd p)) sel = Ok lb ->
  mapM (fun b => mapM (fun ei => znth (fst b) ei) members) lb = Ok lY ->
  oe_row inv EL radar eo 2 ss back sel members row out = ecore inv EL eo members (zlen sel) (map fst sel) (map st_ci ls) (map st_obs ls) (map snd lb) lY row out.
Proof. intros E1 E2 E3. unfold oe_row. rewrite E1. cbn [bind]. rewrite E2. cbn [bind]. rewrite E3. reflexivity. Qed.
Lemma point_run inv EL radar o eo elevs d ss f sel y x back members row ls lb lY :
  mapM (oi_background o elevs (d_e d) f) ss = Ok back -> oi_members d f = Ok members -> mapM (f_get f y x) (zrange 0 (d_e d)) = Ok row ->
  mapM (fun p => znth ss (snd p)) sel = Ok ls -> mapM (fun p => znth back (snd p)) sel = Ok lb -> mapM (fun b => mapM (fun ei => znth (fst b) ei) members) lb = Ok lY ->
  oe_point inv EL radar o eo 2 elevs d ss f sel y x = ecore inv EL eo members (zlen sel) (map fst sel) (map st_ci ls) (map st_obs ls) (map snd lb) lY row (map (fun _ => v2r CMV) (zrange 0 (d_e d))).
Proof. intros E1 E2 E3 E4 E5 E6. unfold oe_point. rewrite E1. cbn [bind]. rewrite E2. cbn [bind]. rewrite E3. cbn [bind]. apply row_core; assumption. Qed.
