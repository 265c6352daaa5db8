(** The client's kriging calibrator: C214-C221. *)
From Coq Require Import Lia.
From Verif Require Import Base ListLib QcTac M_Stat S_Stat M_COpt M_CUtil S_CUtil P_CUtil M_CCal S_CCal P_CCal M_CCal2 S_CCal2 M_CTree S_CTree P_CDistEx M_CKrig S_CKrig P_CKrig P_CKrigEx.
Local Open Scope Z_scope.

(** C214: the covariance of two locations *)
Theorem C214_covariance : forall D exq k e r m a b la lo el la' lo' el', metric_like D -> exponential exq -> options k e r m -> settled a la lo el -> settled b la' lo' el' ->
  exists c, calc_covar (lift4 D) (on_numbers exq) k a b = Ok (Fin c) /\ calc_covar (lift4 D) (on_numbers exq) k b a = Ok (Fin c) /\ (0 <= c <= 1)%Qc /\
    ((r <= D la lo la' lo')%Qc \/ (exists h, m = Some h /\ (h <= apart el el')%Qc) -> c = 0%Qc) /\
    ((0 < r)%Qc -> (forall h, m = Some h -> 0 < h)%Qc -> D la lo la' lo' = 0%Qc -> el = el' -> c = 1%Qc) /\
    forall b' la'' lo'' el'', settled b' la'' lo'' el'' -> (D la lo la' lo' <= D la lo la'' lo'')%Qc -> (apart el el' <= apart el el'')%Qc ->
      exists c', calc_covar (lift4 D) (on_numbers exq) k a b' = Ok (Fin c') /\ (c' <= c)%Qc.
Proof. exact c214. Qed.
Print Assumptions C214_covariance.
Theorem C214_missing : forall gc ex k a b, unsettled a \/ unsettled b -> calc_covar gc ex k a b = Ok (Fin missing_number).
Proof. exact c214_missing. Qed.
Print Assumptions C214_missing.
Example C214_example : settled (at_lat 10) (qz 10) (qz 0) (qz 0) /\ options (within10 KAdd false) (qz 10) (qz 10) None /\ calc_covar (lift4 flat) (on_numbers always) (within10 KAdd false) (at_lat 10) (at_lat 15) = Ok (fq (3 # 5)).
Proof. split; [apply at_lat_settled; reflexivity|]. split; [apply within10_options|fcalc]. Qed.

(** C215: the correction solves the equations of kriging.  False for division and for missing values *)
Theorem C215_divide_refuted : exists D exq pw inv k locs pars lats lons elevs d fs c g b out t y x e q w, kriging_case D exq inv k locs pars lats lons elevs d fs c g b /\ k_op k = KDivide /\
  kriging_calibrator (lift4 D) (on_numbers exq) pw inv k None true locs pars lats lons elevs d fs = Ok out /\ 0 <= t < d_t d /\ within d y x e /\ element fs t y x e (Fin q) /\ element out t y x e w /\ ~ kriged (k_op k) (zlen locs) c (g y x) (b t) q w.
Proof. exact c215_divide. Qed.
Print Assumptions C215_divide_refuted.
Theorem C215_missing_refuted : exists D exq pw inv k locs pars lats lons elevs d fs c g b out t y x e v w, kriging_case D exq inv k locs pars lats lons elevs d fs c g b /\ k_op k = KAdd /\
  kriging_calibrator (lift4 D) (on_numbers exq) pw inv k None true locs pars lats lons elevs d fs = Ok out /\ 0 <= t < d_t d /\ within d y x e /\ element fs t y x e v /\ missing v /\ element out t y x e w /\ ~ missing w.
Proof. exact c215_missing. Qed.
Print Assumptions C215_missing_refuted.
Theorem C215_kriging_partial : forall D exq pw inv k locs pars lats lons elevs d fs c g b, kriging_case D exq inv k locs pars lats lons elevs d fs c g b -> k_op k <> KDivide -> exists out, kriging_calibrator (lift4 D) (on_numbers exq) pw inv k None true locs pars lats lons elevs d fs = Ok out /\ shaped d out /\
  forall t y x e q, 0 <= t < d_t d -> within d y x e -> element fs t y x e (Fin q) -> exists w, element out t y x e w /\ kriged (k_op k) (zlen locs) c (g y x) (b t) q w.
Proof. exact c215. Qed.
Print Assumptions C215_kriging_partial.
Example C215_example : kriging_case flat always pair_inverse (within10 KAdd false) [at_lat 10; at_lat 15] (fun _ => pair_bias) [[fz 10]] [[fz 0]] [[fz 0]] (dims2 1 1 1) [row 1 1 [fz 8]] pair_cov (fun _ _ i => if i =? 0 then 1%Qc else Q2Qc (3 # 5)) (fun _ i => if i =? 0 then qz 5 else 0%Qc) /\
  kriging_calibrator (lift4 flat) (on_numbers always) (fun _ w => w) pair_inverse (within10 KAdd false) None true [at_lat 10; at_lat 15] (fun _ => pair_bias) [[fz 10]] [[fz 0]] [[fz 0]] (dims2 1 1 1) [row 1 1 [fz 8]] = Ok [row 1 1 [fq (8 * 1176859 + 5 * 1096750 # 1176859)]].
Proof. split; [apply pair_case|fcalc]. Qed.

(** C216: biases that mean no correction.  False for division *)
Theorem C216_divide_refuted : exists D exq pw inv k locs pars lats lons elevs d fs c g b out t y x e v w, kriging_case D exq inv k locs pars lats lons elevs d fs c g b /\ k_op k = KDivide /\ (forall t i, b t i = 0%Qc) /\
  kriging_calibrator (lift4 D) (on_numbers exq) pw inv k None true locs pars lats lons elevs d fs = Ok out /\ 0 <= t < d_t d /\ within d y x e /\ element fs t y x e v /\ element out t y x e w /\ v = fz 8 /\ w = fz (-8).
Proof. exact c216_divide. Qed.
Print Assumptions C216_divide_refuted.
Theorem C216_no_bias_partial : forall D exq pw inv k locs pars lats lons elevs d fs c g b, kriging_case D exq inv k locs pars lats lons elevs d fs c g b -> k_op k <> KDivide -> (forall t i, 0 <= t < d_t d -> 0 <= i < zlen locs -> b t i = 0%Qc) -> exists out, kriging_calibrator (lift4 D) (on_numbers exq) pw inv k None true locs pars lats lons elevs d fs = Ok out /\ shaped d out /\
  forall t y x e v, 0 <= t < d_t d -> within d y x e -> element fs t y x e v -> element out t y x e v.
Proof. exact c216. Qed.
Print Assumptions C216_no_bias_partial.
Example C216_example : kriging_case flat always alone (within10 KMultiply false) [at_lat 10] (fun _ _ => [fz 1]) [[fz 10]] [[fz 0]] [[fz 0]] (dims2 1 2 1) [row 1 2 [fz 8; CMV]] (fun _ _ => 1%Qc) (fun _ _ _ => 1%Qc) (fun _ _ => 0%Qc).
Proof. apply one_case; [right; exists (qz 1), []; split; [reflexivity|]; split; [discriminate|apply Qc_is_canon; reflexivity]|discriminate|apply row_shaped; reflexivity]. Qed.

(** C217: the full correction at a station.  False for stations that influence each other *)
Theorem C217_two_refuted : exists D exq pw inv k locs pars lats lons elevs d fs c g b out i l t y x e q q', kriging_case D exq inv k locs pars lats lons elevs d fs c g b /\ k_op k = KAdd /\
  kriging_calibrator (lift4 D) (on_numbers exq) pw inv k None true locs pars lats lons elevs d fs = Ok out /\ 0 <= t < d_t d /\ within d y x e /\ znth locs i = Ok l /\ located_at lats lons elevs y x l /\
  element fs t y x e (Fin q) /\ element out t y x e (Fin q') /\ q' <> (q + b t i)%Qc.
Proof. exact c217_refuted. Qed.
Print Assumptions C217_two_refuted.
Theorem C217_station_partial : forall D exq pw inv k locs pars lats lons elevs d fs c g b, kriging_case D exq inv k locs pars lats lons elevs d fs c g b -> k_op k <> KDivide -> (forall i j, 0 <= i < zlen locs -> 0 <= j < zlen locs -> i <> j -> c i j = 0%Qc) -> exists out, kriging_calibrator (lift4 D) (on_numbers exq) pw inv k None true locs pars lats lons elevs d fs = Ok out /\ shaped d out /\
  forall t y x e q, 0 <= t < d_t d -> within d y x e -> element fs t y x e (Fin q) ->
    (dot (zlen locs) (b t) (g y x) <> missing_number -> element out t y x e (Fin (corrected (k_op k) q (dot (zlen locs) (b t) (g y x))))) /\
    (forall i l, znth locs i = Ok l -> located_at lats lons elevs y x l -> (exists e r m, options k e r m /\ 0 < r /\ forall h, m = Some h -> 0 < h)%Qc -> element out t y x e (Fin (corrected (k_op k) q (b t i)))).
Proof. exact c217. Qed.
Print Assumptions C217_station_partial.
Example C217_example : kriging_case flat always alone (within10 KAdd false) [at_lat 10] (fun _ _ => [fz 2]) [[fz 10]] [[fz 0]] [[fz 0]] (dims2 1 1 1) [row 1 1 [fz 8]] (fun _ _ => 1%Qc) (fun _ _ _ => 1%Qc) (fun _ _ => qz 2) /\
  kriging_calibrator (lift4 flat) (on_numbers always) (fun _ w => w) alone (within10 KAdd false) None true [at_lat 10] (fun _ _ => [fz 2]) [[fz 10]] [[fz 0]] [[fz 0]] (dims2 1 1 1) [row 1 1 [fz 8]] = Ok [row 1 1 [fz 10]].
Proof. split; [|fcalc]. apply one_case; [right; exists (qz 2), []; split; [reflexivity|]; split; [discriminate|reflexivity]|discriminate|apply row_shaped; reflexivity]. Qed.

(** C218: the auxiliary variable.  False for all but the first member *)
Theorem C218_weight : forall d fs lo hi w t y x e vs, shaped d fs -> 0 <= t < d_t d -> within d y x e ->
  Forall2 (fun tt v => element fs tt y x e v) (zrange (Z.max 0 (t - w)) (Z.min (d_t d) (t + w + 1))) vs ->
  aux_weight fs (Fin lo) (Fin hi) w (d_t d) t y x e = Ok (Fin (share (present vs) lo hi)) /\ (0 <= share (present vs) lo hi <= 1)%Qc.
Proof. exact c218_weight. Qed.
Print Assumptions C218_weight.
Theorem C218_members_refuted : exists D exq pw inv k locs pars lats lons elevs d fs c g b fsa out, kriging_case D exq inv k locs pars lats lons elevs d fs c g b /\ k_op k = KAdd /\ shaped d fsa /\
  kriging_calibrator (lift4 D) (on_numbers exq) pw inv k (Some (fsa, fz 0, fz 1, 0)) true locs pars lats lons elevs d fs = Ok out /\
  aux_weight fsa (fz 0) (fz 1) 0 1 0 0 0 1 = Ok (fz 1) /\ b 0 0 = qz 2 /\ g 0 0 0 = 1%Qc /\ element fs 0 0 0 1 (fz 8) /\ element out 0 0 0 1 (fz 8).
Proof. exact c218_refuted. Qed.
Print Assumptions C218_members_refuted.
Theorem C218_members_partial : forall d pw op wt b f y x, of_size d f -> 0 <= y < d_y d -> 0 <= x < d_x d -> 0 <= d_e d -> op = KAdd \/ op = KSubtract -> b <> missing_number ->
  exists f', krig_point pw op (Some (fun e => Ok (Fin (wt e)))) (d_e d) (Fin b) f y x = Ok f' /\ of_size d f' /\
    (forall e q, 0 <= e < d_e d -> f_get f y x e = Ok (Fin q) -> f_get f' y x e = Ok (Fin (corrected op q (b * weight_until wt e)))) /\
    (forall y' x' e, within d y' x' e -> (y', x') <> (y, x) -> f_get f' y' x' e = f_get f y' x' e).
Proof. exact c218_members. Qed.
Print Assumptions C218_members_partial.
Example C218_example : aux_weight [row 1 1 [fz 0]; row 1 1 [fz 3]; row 1 1 [CMV]; row 1 1 [fz 1]; row 1 1 [fz 1]] (fz 0) (fz 1) 2 5 1 0 0 0 = Ok (fq (2 # 3)).
Proof. fcalc. Qed.

(** C219: cross validation.  False if a station before the nearest is far away *)
Theorem C219_far_refuted : exists D exq pw inv k locs pars lats lons elevs d fs m out n l, metric_like D /\ exponential exq /\ k_cross k = true /\ k_op k = KAdd /\ shaped d fs /\
  krig_matrix (calc_covar (lift4 D) (on_numbers exq) k) locs = Ok m /\ inverse_of (zlen locs) m (inv m) /\
  znth locs n = Ok l /\ located_at lats lons elevs 0 0 l /\ (forall t i a, i <> n -> znth locs i = Ok a -> pars t a = [fz 0]) /\
  kriging_calibrator (lift4 D) (on_numbers exq) pw inv k None true locs pars lats lons elevs d fs = Ok out /\ element fs 0 0 0 0 (fz 8) /\ ~ element out 0 0 0 0 (fz 8).
Proof. exact c219_refuted. Qed.
Print Assumptions C219_far_refuted.
Theorem C219_all_near_partial : forall inv M inverse n c g b, rect n n M -> (forall i j, 0 <= i < n -> 0 <= j < n -> get2 M i j = Ok (Fin (reduced c i j))) -> 0 < n -> (forall i, 0 <= i < n -> (0 < g i)%Qc) -> (forall i, 0 <= i < n -> b i <> missing_number) ->
  (forall k, 0 <= k < n -> inverts inv n (others k c)) ->
  exists k ws, 0 <= k < n /\ (forall i, 0 <= i < n -> (g i <= g k)%Qc) /\ ws k = 0%Qc /\ (forall i, 0 <= i < n -> i <> k -> dot n (reduced c i) ws = g i) /\
    krig_correction inv true M inverse (map (fun i => Fin (b i)) (zrange 0 n)) (map (fun i => (i, Fin (g i))) (zrange 0 n)) = Ok (Fin (dot n b ws)).
Proof. exact c219. Qed.
Print Assumptions C219_all_near_partial.
Example C219_example : (forall k, 0 <= k < 2 -> inverts (fun _ => [[fz 1; fz 0]; [fz 0; fz 1]]) 2 (others k pair_cov)) /\
  krig_correction (fun _ => [[fz 1; fz 0]; [fz 0; fz 1]]) true [[fz 1; fq (621 # 1250)]; [fq (621 # 1250); fz 1]] [] [fz 5; fz 10] [(0, fz 1); (1, fq (3 # 5))] = Ok (fz 6).
Proof.
  split; [|fcalc]. intros k Hk M RM HM. split; [split; [reflexivity|intros r [<-|[<-|[]]]; reflexivity]|]. exists (reduced (others k pair_cov)), (fun i j => if i =? j then 1%Qc else 0%Qc). split.
  - intros i j Hi Hj. split; [apply HM; auto|]. assert (i = 0 \/ i = 1) as [-> | ->] by lia; assert (j = 0 \/ j = 1) as [-> | ->] by lia; reflexivity.
  - intros i j Hi Hj. assert (k = 0 \/ k = 1) as [-> | ->] by lia; assert (i = 0 \/ i = 1) as [-> | ->] by lia; assert (j = 0 \/ j = 1) as [-> | ->] by lia; apply Qc_is_canon; vm_compute; reflexivity.
Qed.

(** C220: stations without coordinates.  False: they count as strongly anticorrelated *)
Theorem C220_influence_refuted : exists D exq pw inv k l l' pars lats lons elevs d fs m out out', metric_like D /\ exponential exq /\ k_cross k = false /\ k_op k = KAdd /\ shaped d fs /\ unsettled l' /\
  krig_matrix (calc_covar (lift4 D) (on_numbers exq) k) [l; l'] = Ok m /\ inverse_of 2 m (inv m) /\
  kriging_calibrator (lift4 D) (on_numbers exq) pw inv k None true [l] pars lats lons elevs d fs = Ok out /\ element out 0 0 0 0 (fz 13) /\
  kriging_calibrator (lift4 D) (on_numbers exq) pw inv k None true [l; l'] pars lats lons elevs d fs = Ok out' /\ ~ element out' 0 0 0 0 (fz 13).
Proof. exact c220_refuted. Qed.
Print Assumptions C220_influence_refuted.
Theorem C220_none_partial : forall gc ex pw inv k aux locs pars lats lons elevs d fs, shaped d fs -> rect (d_y d) (d_x d) lats -> rect (d_y d) (d_x d) lons -> rect (d_y d) (d_x d) elevs -> (forall i l, znth locs i = Ok l -> unsettled l) ->
  exists out, kriging_calibrator gc ex pw inv k aux true locs pars lats lons elevs d fs = Ok out /\ shaped d out /\ forall t y x e v, 0 <= t < d_t d -> within d y x e -> element fs t y x e v -> element out t y x e v.
Proof. exact c220. Qed.
Print Assumptions C220_none_partial.
Example C220_example : unsettled unplaced /\ kriging_calibrator (lift4 flat) (on_numbers always) (fun _ w => w) alone (within10 KAdd false) None true [unplaced] (fun _ _ => [fz 2]) [[fz 10]] [[fz 0]] [[fz 0]] (dims2 1 1 1) [row 1 1 [fz 8]] = Ok [row 1 1 [fz 8]].
Proof. split; [right; right; reflexivity|fcalc]. Qed.

(** C221: training.  False for multiplication without data *)
Theorem C221_no_data_refuted : exists E data b f, training_pairs data = [] /\ kriging_train E KMultiply data = Ok [Fin b] /\ adjusted KMultiply f b <> f.
Proof. exact c221_refuted. Qed.
Print Assumptions C221_no_data_refuted.
Theorem C221_training_partial : forall E op data, let l := training_pairs data in l <> [] -> (op = KMultiply \/ op = KDivide -> qsum (map snd l) <> 0%Qc /\ qsum (map fst l) <> 0%Qc) ->
  exists b, kriging_train E op data = Ok [Fin b] /\ qsum (map (fun p => adjusted op (snd p) b) l) = qsum (map fst l).
Proof. exact c221. Qed.
Print Assumptions C221_training_partial.
Theorem C221_no_data_partial : forall E op data, training_pairs data = [] -> kriging_train E op data = Ok [Fin 0%Qc].
Proof. exact c221_nothing. Qed.
Print Assumptions C221_no_data_partial.
Example C221_example : training_pairs [(fz 3, [fz 1; fz 3]); (fz 5, [fz 2]); (CMV, [fz 1])] <> [] /\ kriging_train E0 KMultiply [(fz 3, [fz 1; fz 3]); (fz 5, [fz 2]); (CMV, [fz 1])] = Ok [fz 2].
Proof. split; [discriminate|fcalc]. Qed.
