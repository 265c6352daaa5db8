(** Examples and refutations for the training of the client's coastal calibrator. *)
From Verif Require Import Base QcTac ListLib M_Geo S_Geo M_Stat S_Stat P_Stat M_OI S_OI P_OISum M_Ensi M_COpt M_CUtil S_CUtil P_CUtil M_CCal S_CCal P_CCal M_CCal2 S_CCal2 P_CCal2 S_CDown M_CGradient S_CGradient P_CGradient P_CBct M_CCoast S_CCoast P_CCoast P_CDistEx P_CDiagEx M_CTrain S_CTrain P_CTrain P_CTrain2 P_CTrain3 P_CTrain4.
Local Open Scope Z_scope.

(** cases on a grid of two points, sea and land, at the latter: what is observed and the forecasts at the two *)
Definition coast_data (l : list (val * val * val)) : list (field * field) := map (fun x => let '(o, s, w) := x in (row 1 1 [o], row 2 1 [s; w])) l.
Definition coast_cases (l : list (val * val * val)) : list case := map (fun x => let '(o, s, w) := x in {| c_obs := known o; c_own := known w; c_low := known s; c_high := known w |}) l.
Lemma mean_one v : mean_of [v] = known v.
Proof.
  unfold mean_of. rewrite present_cons. change (present []) with (@nil Qc). destruct v as [| | |q]; try reflexivity. cbn [known]. destruct (Qc_eq_dec q missing_number); [reflexivity|].
  destruct (list_eq_dec Qc_eq_dec [q] []); [discriminate|]. replace (qmean [q]) with q by (unfold qmean, qlen; change (zlen [q]) with 1; rewrite qz_1; cbn [qsum]; field; discriminate). destruct (Qc_eq_dec q missing_number); [contradiction|reflexivity].
Qed.
Lemma coast_training l : l <> [] -> training (dims2 2 1 1) 1 coast2 0 0 0 1 (0, 0) 0%Qc (0, 1) 1%Qc (coast_data l) (coast_cases l).
Proof.
  intros NE. split; [lia|]. split; [apply coast2_fractions|]. split; [reflexivity|]. split; [cbn; lia|]. split; [cbn; lia|].
  assert (CL : forall p, close 1 2 1 0 1 p -> p = (0, 0) \/ p = (0, 1)). { intros [a b] C. unfold close in C. cbn [fst snd] in C. assert (a = 0) by lia. subst a. assert (b = 0 \/ b = 1) as [->| ->] by lia; auto. }
  assert (F0 : fraction_at coast2 (0, 0) 0%Qc) by reflexivity. assert (F1 : fraction_at coast2 (0, 1) 1%Qc) by (unfold fraction_at; vcalc).
  split; [|split; [|split]].
  - split; [unfold close; cbn; lia|]. split; [exact F0|]. intros p' q' C K. apply CL in C as [->| ->]; unfold fraction_at in *; [assert (q' = 0%Qc) as -> by congruence|assert (q' = 1%Qc) as -> by congruence]; split; try discriminate; intros B; unfold before in B; cbn in B; lia.
  - split; [unfold close; cbn; lia|]. split; [exact F1|]. intros p' q' C K. apply CL in C as [->| ->]; unfold fraction_at in *; [assert (q' = 0%Qc) as -> by congruence|assert (q' = 1%Qc) as -> by congruence]; split; try discriminate; intros B; try discriminate; unfold before in B; cbn in B; lia.
  - destruct l; [congruence|discriminate].
  - clear NE. induction l as [|[[o s] w] l IH]; [constructor|]. constructor; [|exact IH]. split; [apply row_size; [lia|lia|reflexivity]|]. split; [exists o; split; reflexivity|].
    split; [|split]; cbn [c_own c_low c_high]; [exists [w]|exists [s]|exists [w]]; (split; [reflexivity|]; split; [intros e Hee; cbn in Hee; replace e with 0 by lia; reflexivity|symmetry; apply mean_one]).
Qed.

Definition tenth : Qc := Q2Qc (1 # 10).
Lemma inverts2 : lu_inverts lu0 2.
Proof. apply lu0_ok. lia. Qed.
(** least squares: two cases with known values, and one more without the value over sea *)
Definition two_days : list (val * val * val) := [(fz 11, fz 9, fz 10); (fz 12, fz 8, fz 10)].
Lemma two_days_samples nn : samples nn (1 - 0)%Qc (coast_cases two_days) = if nn then [(qz 1, qz 1); (qz 2, qz 2)] else [(qz 2, qz 1); (qz 4, qz 2)].
Proof. destruct nn; vm_compute; repeat match goal with |- @eq (list _) (_ :: _) (_ :: _) => f_equal | |- (_, _) = (_, _) => f_equal | |- @eq Qc _ _ => apply Qc_is_canon; reflexivity | |- _ => reflexivity end. Qed.
Lemma two_days_train : coastal_train E0 lu0 1 (Fin tenth) false coast2 (coast_data two_days) 0 0 0 1 = Ok [fz 0; fz 1; fz 2].
Proof. fcalc. Qed.
Lemma two_days_near : coastal_train E0 lu0 1 (Fin tenth) true coast2 (coast_data two_days) 0 0 0 1 = Ok [fz 0; fz 1; fz 1].
Proof. fcalc. Qed.
Lemma two_days_flat : coastal_train E0 lu0 1 (Fin (qz 2)) false coast2 (coast_data two_days) 0 0 0 1 = Ok [fz 3; fz 1; fz 0].
Proof. fcalc. Qed.
Lemma two_days_bases nn : bases_known nn (coast_cases two_days).
Proof. intros c Hc _ _. destruct nn, Hc as [<-|[<-|[]]]; discriminate. Qed.
Lemma two_days_varied nn : varied (samples nn (1 - 0)%Qc (coast_cases two_days)).
Proof. rewrite two_days_samples. destruct nn; eexists; eexists; (split; [left; reflexivity|]; split; [right; left; reflexivity|]); discriminate. Qed.
Lemma two_days_training : training (dims2 2 1 1) 1 coast2 0 0 0 1 (0, 0) 0%Qc (0, 1) 1%Qc (coast_data two_days) (coast_cases two_days).
Proof. apply coast_training. discriminate. Qed.

Definition three_days : list (val * val * val) := [(fz 11, CMV, fz 10); (fz 11, fz 9, fz 10); (fz 10, fz 8, fz 10)].
Lemma three_days_samples : samples false (1 - 0)%Qc (coast_cases three_days) = [(qz 2, qz 1); (qz 2, qz 2)].
Proof. vm_compute; repeat match goal with |- @eq (list _) (_ :: _) (_ :: _) => f_equal | |- (_, _) = (_, _) => f_equal | |- @eq Qc _ _ => apply Qc_is_canon; reflexivity | |- _ => reflexivity end. Qed.
Lemma three_days_train : coastal_train E0 lu0 1 (Fin tenth) false coast2 (coast_data three_days) 0 0 0 1 = Ok [fz 842; fz 1; fz (-504)].
Proof. fcalc. Qed.
Lemma c251_refuted : exists E lu radius md nn laf d data cs Io Jo Ie Je pl ql pu qu a c a' c', lu_inverts lu 2 /\ (0 <= md)%Qc /\ training d radius laf Io Jo Ie Je pl ql pu qu data cs /\ (md < qu - ql)%Qc /\
  varied (samples nn (qu - ql)%Qc cs) /\ coastal_train E lu radius (Fin md) nn laf data Io Jo Ie Je = Ok [Fin a; Fin 1; Fin c] /\ (squared_error (samples nn (qu - ql)%Qc cs) a' c' < squared_error (samples nn (qu - ql)%Qc cs) a c)%Qc.
Proof.
  exists E0, lu0, 1, tenth, false, coast2, (dims2 2 1 1), (coast_data three_days), (coast_cases three_days), 0, 0, 0, 1, (0, 0), 0%Qc, (0, 1), 1%Qc, (qz 842), (qz (-504)), (qz 2), (qz 0).
  split; [exact inverts2|]. split; [discriminate|]. split; [apply coast_training; discriminate|]. split; [reflexivity|]. rewrite three_days_samples.
  split; [eexists; eexists; split; [left; reflexivity|]; split; [right; left; reflexivity|]; discriminate|]. split; [exact three_days_train|]. reflexivity.
Qed.
Definition same_gradient : list (val * val * val) := [(fz 11, fz 9, fz 10); (fz 12, fz 9, fz 10)].
Lemma c252_refuted : exists E lu radius md nn laf d data cs Io Jo Ie Je pl ql pu qu, lu_inverts lu 2 /\ (0 <= md)%Qc /\ training d radius laf Io Jo Ie Je pl ql pu qu data cs /\ bases_known nn cs /\ 2 <= zlen (samples nn (qu - ql)%Qc cs) /\
  coastal_train E lu radius (Fin md) nn laf data Io Jo Ie Je = Abort.
Proof.
  exists E0, lu0, 1, tenth, false, coast2, (dims2 2 1 1), (coast_data same_gradient), (coast_cases same_gradient), 0, 0, 0, 1, (0, 0), 0%Qc, (0, 1), 1%Qc.
  split; [exact inverts2|]. split; [discriminate|]. split; [apply coast_training; discriminate|]. split; [intros c Hc _ _; destruct Hc as [<-|[<-|[]]]; discriminate|]. split; [vm_compute; discriminate|]. vm_compute. reflexivity.
Qed.
(** the training data of [two_days] after the calibration *)
Lemma two_days_complete : Forall2 (complete_case (dims2 2 1 1) 0 0) (coast_data two_days) [qz 11; qz 12].
Proof.
  repeat constructor; try reflexivity; try discriminate; intros y z e ((H1 & H2) & (H3 & H4) & (H5 & H6)); cbn in *; assert (y = 0) as -> by lia; assert (e = 0) as -> by lia; assert (z = 0 \/ z = 1) as [->| ->] by lia;
    eexists; (split; [reflexivity|]; reflexivity).
Qed.
Lemma two_days_calibrated : Forall2 (calibrated_case (dims2 2 1 1) 1 tenth false [fz 0; fz 1; fz 2] coast2 0 1) (coast_data two_days) [[qz 11]; [qz 12]].
Proof.
  pose proof two_days_training as (_ & _ & _ & _ & _ & HL & HU & _).
  assert (G : forall o s w q, q = (qz 0 + qz 1 * qz s + qz 2 * ((qz w - qz s) / (1 - 0)))%Qc -> calibrated_case (dims2 2 1 1) 1 tenth false [fz 0; fz 1; fz 2] coast2 0 1 (row 1 1 [fz o], row 2 1 [fz s; fz w]) [q]).
  { intros o s w q ->. split; [reflexivity|]. intros e Hee. cbn in Hee. replace e with 0 by lia. exists (qz 0), (qz 1), (qz 2), (0, 0), 0%Qc, (0, 1), 1%Qc, (qz s), (qz w), (qz w).
    split; [reflexivity|]. split; [reflexivity|]. split; [reflexivity|]. split; [exact HL|]. split; [exact HU|]. split; [reflexivity|]. split; [reflexivity|]. split; [reflexivity|].
    unfold qnth. cbn [nth Z.to_nat]. destruct (Qclt_le_dec tenth (1 - 0)) as [_|K]; [reflexivity|]. vm_compute in K. exfalso. apply K. reflexivity. }
  repeat constructor; apply G; apply Qc_is_canon; vm_compute; reflexivity.
Qed.
