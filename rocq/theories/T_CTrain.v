(** Linear regression and the training of the coastal calibrator of the client: C250-C253. *)
From Coq Require Import Lia.
From Verif Require Import Base ListLib QcTac M_Stat S_Stat M_OI S_OI M_COpt M_CUtil S_CUtil M_CCal S_CCal M_CCal2 S_CCal2 S_CDown S_CGradient P_CDistEx M_CCoast S_CCoast P_CDiagEx M_CTrain S_CTrain P_CTrain P_CTrain4 P_CTrain5.
Local Open Scope Z_scope.

(** C250: linear regression *)
Theorem C250_least_squares : forall lu ys (preds : list (list Qc)) (ac : bool), let n := zlen preds + (if ac then 1 else 0) in let X := predictor_value preds ac in
  lu_inverts lu n -> 0 < n -> 2 <= zlen ys -> (forall p, In p preds -> zlen p = zlen ys) ->
  (dependent (zlen ys) n X -> regression lu (map Fin ys) (map (map Fin) preds) ac = Abort) /\
  (~ dependent (zlen ys) n X -> exists bs, regression lu (map Fin ys) (map (map Fin) preds) ac = Ok (map Fin bs) /\ zlen bs = n /\ best_fit (zlen ys) n X (qnth ys) (qnth bs)).
Proof. exact c250. Qed.
Print Assumptions C250_least_squares.
Theorem C250_checks : forall lu y preds ac, zlen y < 2 \/ (exists p, In p preds /\ zlen p <> zlen y) -> regression lu y preds ac = Abort.
Proof. exact c250_checks. Qed.
Print Assumptions C250_checks.
Example C250_example : lu_inverts lu0 2 /\ lu_inverts lu0 3 /\ regression lu0 [fz 1; fz 4; fz 4] [[fz 0; fz 1; fz 2]] true = Ok [Fin (Q2Qc (3 # 2)); Fin (Q2Qc (3 # 2))] /\
  regression lu0 [fz 1; fz 4; fz 4] [[fz 0; fz 1; fz 2]; [fz 3; fz 3; fz 3]] true = Abort /\ regression lu0 [fz 1] [[fz 2]] false = Abort.
Proof. split; [apply lu0_ok; lia|]. split; [apply lu0_ok; lia|]. split; [fcalc|]. split; vm_compute; reflexivity. Qed.

(** C251: the training minimises the squared error.  False if the forecast to be corrected is missing in a case *)
Theorem C251_training_refuted : exists E lu radius md nn laf d data cs Io Jo Ie Je pl ql pu qu a c a' c', lu_inverts lu 2 /\ (0 <= md)%Qc /\ training d radius laf Io Jo Ie Je pl ql pu qu data cs /\ (md < qu - ql)%Qc /\
  varied (samples nn (qu - ql)%Qc cs) /\ coastal_train E lu radius (Fin md) nn laf data Io Jo Ie Je = Ok [Fin a; Fin 1; Fin c] /\ (squared_error (samples nn (qu - ql)%Qc cs) a' c' < squared_error (samples nn (qu - ql)%Qc cs) a c)%Qc.
Proof. exact c251_refuted. Qed.
Print Assumptions C251_training_refuted.
Theorem C251_training_partial : forall E lu radius md nn laf d data cs Io Jo Ie Je pl ql pu qu, lu_inverts lu 2 -> (0 <= md)%Qc -> training d radius laf Io Jo Ie Je pl ql pu qu data cs -> bases_known nn cs -> let l := samples nn (qu - ql)%Qc cs in
  ((md < qu - ql)%Qc -> varied l -> exists a c, coastal_train E lu radius (Fin md) nn laf data Io Jo Ie Je = Ok [Fin a; Fin 1; Fin c] /\
    forall a' c', (squared_error l a c <= squared_error l a' c')%Qc /\ (squared_error l a' c' = squared_error l a c -> a' = a /\ c' = c)) /\
  ((qu - ql <= md)%Qc -> l <> [] -> (forall p, In p l -> missing_number < fst p)%Qc -> exists a, coastal_train E lu radius (Fin md) nn laf data Io Jo Ie Je = Ok [Fin a; Fin 1; Fin 0] /\
    a = qmean (map fst l) /\ forall a', (squared_error l a 0 <= squared_error l a' 0)%Qc).
Proof. exact c251. Qed.
Print Assumptions C251_training_partial.
Example C251_example : lu_inverts lu0 2 /\ training (dims2 2 1 1) 1 coast2 0 0 0 1 (0, 0) 0%Qc (0, 1) 1%Qc (coast_data two_days) (coast_cases two_days) /\ bases_known false (coast_cases two_days) /\ bases_known true (coast_cases two_days) /\
  varied (samples false (1 - 0)%Qc (coast_cases two_days)) /\ coastal_train E0 lu0 1 (Fin tenth) false coast2 (coast_data two_days) 0 0 0 1 = Ok [fz 0; fz 1; fz 2] /\
  coastal_train E0 lu0 1 (Fin tenth) true coast2 (coast_data two_days) 0 0 0 1 = Ok [fz 0; fz 1; fz 1] /\ coastal_train E0 lu0 1 (Fin (qz 2)) false coast2 (coast_data two_days) 0 0 0 1 = Ok [fz 3; fz 1; fz 0].
Proof. split; [exact inverts2|]. split; [exact two_days_training|]. split; [apply two_days_bases|]. split; [apply two_days_bases|]. split; [apply two_days_varied|]. split; [exact two_days_train|]. split; [exact two_days_near|exact two_days_flat]. Qed.

(** C252: the training gives parameters if there are cases.  False if the gradient is the same in all *)
Theorem C252_cases_refuted : exists E lu radius md nn laf d data cs Io Jo Ie Je pl ql pu qu, lu_inverts lu 2 /\ (0 <= md)%Qc /\ training d radius laf Io Jo Ie Je pl ql pu qu data cs /\ bases_known nn cs /\ 2 <= zlen (samples nn (qu - ql)%Qc cs) /\
  coastal_train E lu radius (Fin md) nn laf data Io Jo Ie Je = Abort.
Proof. exact c252_refuted. Qed.
Print Assumptions C252_cases_refuted.
Theorem C252_cases_partial : forall E lu radius md nn laf d data cs Io Jo Ie Je pl ql pu qu, lu_inverts lu 2 -> (0 <= md)%Qc -> training d radius laf Io Jo Ie Je pl ql pu qu data cs -> bases_known nn cs -> let l := samples nn (qu - ql)%Qc cs in
  l = [] \/ (md < qu - ql)%Qc /\ ~ varied l -> coastal_train E lu radius (Fin md) nn laf data Io Jo Ie Je = Abort.
Proof. exact c252_stops. Qed.
Print Assumptions C252_cases_partial.
Example C252_example : ~ varied (samples false (1 - 0)%Qc (coast_cases same_gradient)) /\ coastal_train E0 lu0 1 (Fin tenth) false coast2 (coast_data same_gradient) 0 0 0 1 = Abort /\
  coastal_train E0 lu0 1 (Fin tenth) false coast2 (coast_data [(CMV, fz 9, fz 10)]) 0 0 0 1 = Abort.
Proof.
  split; [|split; vm_compute; reflexivity]. intros (p & p' & H & H' & N). apply N. cbv [samples coast_cases same_gradient flat_map map app] in H, H'.
  destruct H as [<-|[<-|[]]], H' as [<-|[<-|[]]]; reflexivity.
Qed.

(** C253: calibrating the training data with the trained parameters leaves no mean error *)
Theorem C253_no_bias : forall E lu radius md nn laf d data cs Io Jo Ie Je pl ql pu qu par os wss, lu_inverts lu 2 -> (0 <= md)%Qc -> training d radius laf Io Jo Ie Je pl ql pu qu data cs ->
  Forall2 (complete_case d Io Jo) data os -> (forall p, In p (samples nn (qu - ql)%Qc cs) -> missing_number < fst p)%Qc ->
  coastal_train E lu radius (Fin md) nn laf data Io Jo Ie Je = Ok par -> Forall2 (calibrated_case d radius md nn par laf Ie Je) data wss -> qsum (map qmean wss) = qsum os.
Proof. exact c253. Qed.
Print Assumptions C253_no_bias.
Example C253_example : Forall2 (complete_case (dims2 2 1 1) 0 0) (coast_data two_days) [qz 11; qz 12] /\ (forall p, In p (samples false (1 - 0)%Qc (coast_cases two_days)) -> missing_number < fst p)%Qc /\
  Forall2 (calibrated_case (dims2 2 1 1) 1 tenth false [fz 0; fz 1; fz 2] coast2 0 1) (coast_data two_days) [[qz 11]; [qz 12]].
Proof. split; [exact two_days_complete|]. split; [rewrite two_days_samples; intros p [<-|[<-|[]]]; reflexivity|exact two_days_calibrated]. Qed.
