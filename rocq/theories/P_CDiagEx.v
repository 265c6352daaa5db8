(** Concrete cases for the diagnostics and the coastal calibrator. *)
From Coq Require Import Reals String Ascii Lra.
From Verif Require Import RBase Base ListLib QcTac M_Stat P_Stat M_COpt M_CUtil S_CUtil P_CUtil M_CCal S_CCal P_CCal M_CCal2 S_CDown M_CGradient S_CGradient P_CGradient P_CDistEx M_CDiag S_CDiag P_CDiag M_CCoast S_CCoast P_CCoast.
Local Open Scope Z_scope.

Definition coast2 : list vec := [[fz 0; fz 1]].
Lemma coast2_fractions e t : fractions (dims2 2 e t) coast2.
Proof.
  split; [split; [reflexivity|intros r [<-|[]]; reflexivity]|]. intros y x Hy Hx. cbn in Hy, Hx. assert (y = 0) as -> by lia. assert (x = 0 \/ x = 1) as [-> | ->] by lia.
  - exists (qz 0). split; [reflexivity|]. vm_compute. split; discriminate.
  - exists (qz 1). split; [reflexivity|]. vm_compute. split; discriminate.
Qed.
Lemma c208_refuted : exists radius md nn nPars pars laf d fs out t y x e, 0 <= radius /\ (0 <= md)%Qc /\ fractions d laf /\ shaped d fs /\ 0 <= t < d_t d /\ within d y x e /\
  coastal_calibrator radius (Fin md) nn nPars true pars laf d fs = Ok out /\ ~ exists w, element out t y x e (Fin w) /\ coastal_rule radius md nn (pars t y x) laf d (fun p v => element fs t (fst p) (snd p) e (Fin v)) y x w.
Proof.
  exists 1, (Q2Qc (1 # 10)), false, 3, (fun _ _ _ => [fz 1; fz 1; fz 0]), coast2, (dims2 2 1 1), [row 2 1 [fz 10; fz 20]], [row 2 1 [fz 11; fz 12]], 0, 0, 1, 0.
  split; [lia|]. split; [vm_compute; discriminate|]. split; [apply coast2_fractions|]. split; [apply row_shaped; reflexivity|]. split; [cbn; lia|]. split; [cbn; unfold within; cbn; lia|]. split; [fcalc|].
  intros (w & (g & Eg & Gg) & a & b & c & pl & ql & pu & qu & lo & up & own & Ea & Eb & Ec & (P1 & P2 & P3) & _ & Fl & _ & _ & Hw).
  assert (EO : Fin w = fz 12). { change (Ok (row 2 1 [fz 11; fz 12]) = Ok g) in Eg. injection Eg as <-. change (Ok (fz 12) = Ok (Fin w)) in Gg. congruence. }
  assert (LO : lo = qz 10). { destruct P1 as (C1 & C2 & _). destruct pl as [y x]. cbn [fst snd dims2 d_y d_x] in *. assert (y = 0) as -> by lia. assert (x = 0 \/ x = 1) as [-> | ->] by lia.
    - destruct Fl as (f & Ef & Gf). change (Ok (row 2 1 [fz 10; fz 20]) = Ok f) in Ef. injection Ef as <-. change (Ok (fz 10) = Ok (Fin lo)) in Gf. rename Gf into K. unfold fz in K. congruence.
    - exfalso. destruct (P3 (0, 0) (qz 0)) as [K _]; [unfold close; cbn; lia|reflexivity|]. pose proof P2 as Q. change (Ok (fz 1) = Ok (Fin ql)) in Q. assert (ql = qz 1) by (unfold fz in Q; congruence). subst ql. pose proof (proj1 (qz_le 1 0) K); lia. }
  assert (a = qz 1) by (change (Ok (fz 1) = Ok (Fin a)) in Ea; unfold fz in Ea; congruence). assert (b = qz 1) by (change (Ok (fz 1) = Ok (Fin b)) in Eb; unfold fz in Eb; congruence). assert (c = qz 0) by (change (Ok (fz 0) = Ok (Fin c)) in Ec; unfold fz in Ec; congruence).
  subst a b c lo. unfold fz in EO. assert (W : w = qz 12) by congruence. subst w. assert (K : qz 12 = qz 11). { rewrite <- W. change (qz 0) with 0%Qc. rewrite Qcmult_0_l. apply Qc_is_canon. vm_compute. reflexivity. } apply qz_inj in K. lia.
Qed.
From Verif Require Import RPow P_RBase M_Diag M_CTree S_CTree P_CTree M_CPar S_CPar P_CPar P_CParTxt P_CAlt.
Lemma c205_ex : client_x (RF 10) (RF 0) = RF 0 /\ client_y (RF 10) (RF 0) = RF (-10) /\ (0 < 10)%R.
Proof.
  rewrite client_x_RF, client_y_RF. replace (0 / 180 * gpi)%R with 0%R by (unfold Rdiv; ring). rewrite sin_0, cos_0. split; [f_equal; ring|]. split; [f_equal; ring|lra].
Qed.
Lemma c207_ex : present_real 280 /\ present_real (1 / 2) /\ compute_dewpoint (RF (-999)) (RF (1 / 2)) = RF (-999).
Proof.
  split; [unfold present_real; lra|]. split; [unfold present_real; lra|]. apply c207_dewpoint. left. intros x [= <-] H. apply H. reflexivity.
Qed.
Lemma c209_ex : let calls := [(0, {| l_lat := fz 60; l_lon := fz 0; l_elev := fz 100 |}, [fz 1]); (0, {| l_lat := fz 50; l_lon := fz 0; l_elev := fz 200 |}, [fz 2])] in
  good_history calls /\ all_sited calls /\ two_places calls /\ exists f g, set_all calls (new_pfile true) = Ok f /\ recompute_tree sort_items f = Ok g /\
  altitude_calibrator (lift4 P_CTree.l1) g [[fz 51; fz 58]] [[fz 0; fz 0]] [[fz 7; CMV]] 1 2 = Ok [[fz 200; fz 100]].
Proof.
  intros calls. split. { intros e He. repeat (destruct He as [<-|He]; [split; [split; cbn; lia|split; discriminate]|]). contradiction. }
  split. { intros e He. repeat (destruct He as [<-|He]; [eexists _, _; split; [reflexivity|]; split; [reflexivity|]; split; [repeat split; apply qz_le; lia|]; split; intros E; apply (qz_inj _ (-999)) in E; lia|]). contradiction. }
  split. { exists (0, {| l_lat := fz 60; l_lon := fz 0; l_elev := fz 100 |}, [fz 1]), (0, {| l_lat := fz 50; l_lon := fz 0; l_elev := fz 200 |}, [fz 2]). split; [left; auto|]. split; [right; left; auto|]. intros [E _]. cbn in E. injection E as E. discriminate. }
  exists (match set_all calls (new_pfile true) with Ok f => f | _ => new_pfile true end), (match set_all calls (new_pfile true) with Ok f => match recompute_tree P_CTree.sort_items f with Ok g => g | _ => f end | _ => new_pfile true end).
  split; [reflexivity|]. split; [reflexivity|]. fcalc.
Qed.
