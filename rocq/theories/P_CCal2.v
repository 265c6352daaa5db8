(** Proofs about more calibrators of the client. *)
From Coq Require Import Permutation.
From Verif Require Import Base QcTac ListLib M_Stat S_Stat P_Stat P_Quant P_Even M_COpt M_CUtil S_CUtil P_CUtil M_CCal S_CCal P_CCal M_CCal2 S_CCal2.
Local Open Scope Z_scope.

Lemma par_get_Fin par i : 0 <= i < zlen par -> par_get (map Fin par) i = Ok (Fin (qnth par i)).
Proof. intros H. unfold par_get. rewrite znth_map, qnth_znth by lia. reflexivity. Qed.
Lemma par_valid_iff par : par_valid (map Fin par) = true <-> no_missing par.
Proof. apply all_valid. Qed.
Lemma par_valid_missing par : Exists missing par -> par_valid par = false.
Proof.
  intros H. apply not_true_is_false. intros K. unfold par_valid in K. rewrite forallb_forall in K. apply Exists_exists in H as (v & Hv & M). apply K in Hv. apply cvalid_missing in M. congruence.
Qed.
(** wind direction *)
Lemma wind_factor_value sn cs dir par : dir <> missing_number -> no_missing par -> zlen par = 9 ->
  wind_factor (lift2 sn) (lift2 cs) (Fin dir) (map Fin par) = Ok (Fin (if qltb (fourier sn cs par dir) 0 then 0 else fourier sn cs par dir)%Qc).
Proof.
  intros Hd Hp HL. unfold wind_factor. rewrite cvalid_Fin by auto. rewrite (proj2 (par_valid_iff par) Hp). cbn [negb orb]. rewrite par_get_Fin by lia. cbn [bind].
  change (zrange 1 5) with [1; 2; 3; 4]. unfold fourier. change (zrange 1 5) with [1; 2; 3; 4]. cbn [foldM map qsum]. rewrite !par_get_Fin by lia. cbn [bind vadd vmul lift2].
  match goal with |- Ok (if vltb (Fin ?a) _ then _ else _) = Ok (Fin (if qltb ?b _ then _ else _)) => change (vltb (Fin a) (fz 0)) with (qltb a 0%Qc); replace b with a by ring; destruct (qltb a 0) end; reflexivity.
Qed.
Lemma wind_factor_total sn cs dir par : zlen par = 9 -> exists v, wind_factor sn cs dir par = Ok v.
Proof.
  intros HL. unfold wind_factor. destruct (_ || _); [eauto|]. assert (G : forall i, 0 <= i < 9 -> exists v, par_get par i = Ok v).
  { intros i Hi. unfold par_get. destruct (znth_some par i) as [v ->]; [lia|eauto]. }
  change (zrange 1 5) with [1; 2; 3; 4]. cbn [foldM].
  change (2 * 1 - 1) with 1. change (2 * 1) with 2. change (2 * 2 - 1) with 3. change (2 * 2) with 4. change (2 * 3 - 1) with 5. change (2 * 3) with 6. change (2 * 4 - 1) with 7. change (2 * 4) with 8.
  destruct (G 0) as [v0 ->]; [lia|]. destruct (G 1) as [v1 ->]; [lia|]. destruct (G 2) as [v2 ->]; [lia|]. destruct (G 3) as [v3 ->]; [lia|]. destruct (G 4) as [v4 ->]; [lia|].
  destruct (G 5) as [v5 ->]; [lia|]. destruct (G 6) as [v6 ->]; [lia|]. destruct (G 7) as [v7 ->]; [lia|]. destruct (G 8) as [v8 ->]; [lia|]. cbn [bind]. eauto.
Qed.
Lemma c157 sn cs pars d dirs winds : shaped d dirs -> shaped d winds -> (forall t y x, zlen (pars t y x) = 9) ->
  exists out, wind_direction_calibrator (lift2 sn) (lift2 cs) 9 pars d dirs winds = Ok out /\ shaped d out /\
  forall t y x e dir v, 0 <= t < d_t d -> within d y x e -> element dirs t y x e dir -> element winds t y x e v ->
    exists w, element out t y x e w /\ (missing dir -> w = v) /\
      forall dq vq p, dir = Fin dq -> v = Fin vq -> dq <> missing_number -> vq <> missing_number -> pars t y x = map Fin p -> no_missing p ->
        exists factor, w = Fin (factor * vq)%Qc /\ (0 <= fourier sn cs p dq -> factor = fourier sn cs p dq)%Qc /\ (fourier sn cs p dq < 0 -> factor = 0)%Qc.
Proof.
  intros HD HW HP. unfold wind_direction_calibrator. cbn [Z.eqb Pos.eqb negb].
  destruct (elementwise d winds (fun t f i j e => currDirection <- get4 dirs t i j e ;;
      if cvalid currDirection then
        factor <- wind_factor (lift2 sn) (lift2 cs) currDirection (pars t i j) ;; v <- f_get f i j e ;; f_set f i j e (vmul factor v)
      else Ok f) (fun t y x e v w => forall dir, element dirs t y x e dir -> (missing dir -> w = v) /\
      forall dq vq p, dir = Fin dq -> v = Fin vq -> dq <> missing_number -> vq <> missing_number -> pars t y x = map Fin p -> no_missing p ->
        exists factor, w = Fin (factor * vq)%Qc /\ (0 <= fourier sn cs p dq -> factor = fourier sn cs p dq)%Qc /\ (fourier sn cs p dq < 0 -> factor = 0)%Qc) HW) as (out & E & S & G).
  - intros t f0 Ht Hf Sf f y x e v Sf' W Hv0 Hv. destruct (shaped_elem d dirs t y x e HD Ht W) as (dir & Ed & Gd). rewrite Gd. cbn [bind].
    assert (FD : forall dir', element dirs t y x e dir' -> dir' = dir) by (intros; eapply element_fun; eauto).
    destruct (cvalid dir) eqn:C.
    + left. apply cvalid_true in C as (dq & -> & nd). destruct (wind_factor_total (lift2 sn) (lift2 cs) (Fin dq) (pars t y x) (HP t y x)) as [fa Ef]. rewrite Ef, Hv. cbn [bind].
      eexists. split; [reflexivity|]. exists v. split; [exact Hv0|]. intros dir' Hd'. rewrite (FD dir' Hd'). split; [cbn; contradiction|].
      intros ? vq p [= <-] -> _ _ Hp NP. rewrite Hp, wind_factor_value in Ef by (auto; rewrite <- (zlen_map Fin p), <- Hp; apply HP). injection Ef as <-. cbn [vmul]. eexists. split; [reflexivity|].
      destruct (qltb_spec (fourier sn cs p dq) 0); split; intros; auto; exfalso; qlra.
    + right. split; [reflexivity|]. exists v. split; [exact Hv0|]. intros dir' Hd'. rewrite (FD dir' Hd'). split; [auto|]. intros dq vq p -> _ nd. rewrite cvalid_Fin in C by auto. discriminate.
  - exists out. split; [exact E|]. split; [exact S|]. intros t y x e dir v Ht W Hd Hv. destruct (G t y x e v Ht W Hv) as (w & Hw & R). exists w. split; [exact Hw|]. apply R; auto.
Qed.
Lemma shaped1 l : shaped (dims1 (zlen l)) (map field1 l).
Proof.
  unfold shaped; cbn. rewrite zlen_map. repeat split; try lia; [apply zlen_nonneg|]. apply Forall_forall. intros f Hf. apply in_map_iff in Hf as (v & <- & _). repeat split; cbn; lia.
Qed.
Lemma element1 l t v : znth l t = Ok v <-> element (map field1 l) t 0 0 0 v.
Proof.
  rewrite element_get. unfold get4. rewrite znth_map. destruct (znth l t) as [a| | |] eqn:E; cbn [bind]; split; try discriminate.
  - intros [= ->]. reflexivity.
  - intros H. vm_compute in H. injection H as ->. reflexivity.
Qed.
(** a missing wind, and a wind that is multiplied by a missing factor *)
Lemma c157_refuted : exists sn cs pars dirs winds out, shaped (dims1 2) dirs /\ shaped (dims1 2) winds /\ (forall t y x, zlen (pars t y x) = 9) /\
  wind_direction_calibrator (lift2 sn) (lift2 cs) 9 pars (dims1 2) dirs winds = Ok out /\
  element winds 0 0 0 0 (Fin missing_number) /\ element dirs 0 0 0 0 (fz 90) /\ Forall (fun v => ~ missing v) (pars 0 0 0) /\ (exists w, element out 0 0 0 0 w /\ ~ missing w) /\
  element winds 1 0 0 0 (fz 5) /\ element dirs 1 0 0 0 (fz 90) /\ Exists missing (pars 1 0 0) /\ (exists w, element out 1 0 0 0 w /\ ~ missing w /\ w <> fz 5).
Proof.
  exists (fun _ _ => 0%Qc), (fun _ _ => 0%Qc), (fun t _ _ => if t =? 0 then fz 2 :: repeat (fz 0) 8 else repeat CMV 9), (map field1 [fz 90; fz 90]), (map field1 [CMV; fz 5]), (map field1 [fz (-1998); fz (-4995)]).
  split; [apply (shaped1 [fz 90; fz 90])|]. split; [apply (shaped1 [CMV; fz 5])|]. split; [intros t y x; destruct (t =? 0); reflexivity|]. split; [vcalc|].
  assert (NM : forall z, z <> -999 -> ~ missing (fz z)).
  { intros z Hz M. apply Hz, qz_inj. exact M. }
  split; [apply element1; reflexivity|]. split; [apply element1; reflexivity|]. split; [cbn [Z.eqb]; repeat constructor; apply NM; lia|].
  split; [exists (fz (-1998)); split; [apply element1; reflexivity|apply NM; lia]|]. split; [apply element1; reflexivity|]. split; [apply element1; reflexivity|]. split; [constructor; reflexivity|].
  exists (fz (-4995)). split; [apply element1; reflexivity|]. split; [apply NM; lia|]. intros K. injection K as K. lia.
Qed.

(** regression *)
Lemma regression_total_value (xs : Z -> Qc) cs : no_missing cs -> forall p total, regression_total (Fin total) p (map Fin cs) (fun p => Ok (Fin (xs p))) =
  Ok (Fin (total + qsum (map (fun k => qnth cs k * xs (p + k)%Z) (zrange 0 (zlen cs))))%Qc).
Proof.
  induction cs as [|c cs IH]; intros H p total.
  - cbn. change (zlen (@nil Qc)) with 0. rewrite zrange_nil by lia. cbn. repeat f_equal. ring.
  - inversion H as [|? ? H1 H2]; subst. cbn [map regression_total]. rewrite cvalid_Fin by auto. cbn [negb bind vmul vadd]. rewrite IH by auto. rewrite zlen_cons. pose proof (zlen_nonneg cs) as NN.
    rewrite (zrange_cons 0 (zlen cs + 1)) by lia. cbn [map qsum]. rewrite Z.add_0_r. change (qnth (c :: cs) 0) with c. do 2 f_equal.
    rewrite (zrange_shift 0 (zlen cs) 1), map_map.
    assert (E : map (fun k => (qnth cs k * xs (p + 1 + k)%Z)%Qc) (zrange 0 (zlen cs)) = map (fun k => (qnth (c :: cs) (k + 1) * xs (p + (k + 1))%Z)%Qc) (zrange 0 (zlen cs))).
    { apply map_ext_in. intros k Hk. apply in_zrange in Hk. unfold qnth. replace (Z.to_nat (k + 1)) with (S (Z.to_nat k)) by lia. cbn [nth]. do 2 f_equal. lia. }
    rewrite E. ring.
Qed.
Lemma regression_total_missing term : forall cs p total, Exists missing cs -> (forall k, p <= k -> exists v, term k = Ok v) -> regression_total total p cs term = Ok CMV.
Proof.
  induction cs as [|c cs IH]; intros p total H HT; [inversion H|]. cbn [regression_total]. destruct (cvalid c) eqn:C; [|reflexivity]. cbn [negb]. destruct (HT p) as [v ->]; [lia|]. cbn [bind].
  apply IH; [|intros k Hk; apply HT; lia]. inversion H as [? ? M|]; subst; auto. apply cvalid_missing in M. congruence.
Qed.
Lemma regression_total_ext f g cs : forall p total, (forall k, p <= k < p + zlen cs -> f k = g k) -> regression_total total p cs f = regression_total total p cs g.
Proof.
  induction cs as [|c cs IH]; intros p total H; [reflexivity|]. rewrite zlen_cons in H. pose proof (zlen_nonneg cs). cbn [regression_total]. destruct (negb (cvalid c)); auto. rewrite H by lia. destruct (g p); auto. cbn [bind].
  apply IH. intros; apply H; lia.
Qed.
Lemma regression_total_ok term : forall cs p total, (forall k, p <= k < p + zlen cs -> exists v, term k = Ok v) -> exists v, regression_total total p cs term = Ok v.
Proof.
  induction cs as [|c cs IH]; intros p total H; [cbn; eauto|]. rewrite zlen_cons in H. pose proof (zlen_nonneg cs). cbn [regression_total]. destruct (negb (cvalid c)); [eauto|]. destruct (H p) as [v ->]; [lia|]. cbn [bind].
  apply IH. intros; apply H; lia.
Qed.
Lemma regression_total_missing2 term : forall cs p total, Exists missing cs -> (forall k, p <= k < p + zlen cs -> exists v, term k = Ok v) -> regression_total total p cs term = Ok CMV.
Proof.
  induction cs as [|c cs IH]; intros p total H HT; [inversion H|]. rewrite zlen_cons in HT. pose proof (zlen_nonneg cs). cbn [regression_total]. destruct (cvalid c) eqn:C; [|reflexivity]. cbn [negb]. destruct (HT p) as [v ->]; [lia|]. cbn [bind].
  apply IH; [|intros k Hk; apply HT; lia]. inversion H as [? ? M|]; subst; auto. apply cvalid_missing in M. congruence.
Qed.
Lemma vpow_Fin x n : vpow (Fin x) n = Fin (qpow x n).
Proof. induction n as [|n IH]; [reflexivity|]. cbn. rewrite IH. reflexivity. Qed.
Lemma c158 numParameters pars d fs : shaped d fs -> numParameters <> 0 ->
  exists out, regression_calibrator numParameters pars [] d fs = Ok out /\ shaped d out /\
  forall t y x e v, 0 <= t < d_t d -> within d y x e -> element fs t y x e v -> exists w, element out t y x e w /\
    (missing v \/ Exists missing (pars t y x) -> is_missing_value w) /\
    (forall q cs, v = Fin q -> q <> missing_number -> pars t y x = map Fin cs -> no_missing cs -> w = Fin (polynomial cs q)).
Proof.
  intros H HN. unfold regression_calibrator. replace (numParameters =? 0) with false by lia. change (0 <? zlen []) with false. cbn [andb].
  apply (elementwise d fs _ (fun t y x e v w => (missing v \/ Exists missing (pars t y x) -> is_missing_value w) /\
    (forall q cs, v = Fin q -> q <> missing_number -> pars t y x = map Fin cs -> no_missing cs -> w = Fin (polynomial cs q)))); auto.
  intros t f0 Ht Hf Sf f y x e v S W Hv0 Hv. rewrite Hv. cbn [bind]. left. destruct (cvalid v) eqn:C.
  - apply cvalid_true in C as (q & -> & nq).
    destruct (regression_total_ok (fun p => Ok (vpow (Fin q) (Z.to_nat p))) (pars t y x) 0 (fz 0)) as [r Er]; [eauto|]. rewrite Er. cbn [bind]. exists r. split; [reflexivity|]. exists (Fin q). split; [exact Hv0|]. split.
    + intros [M|M]; [contradiction|]. rewrite regression_total_missing in Er by (auto; eauto). injection Er as <-. reflexivity.
    + intros ? cs [= <-] _ Hp Hc. rewrite Hp in Er. rewrite (regression_total_ext _ (fun p => Ok (Fin (qpow q (Z.to_nat p))))) in Er by (intros; rewrite vpow_Fin; reflexivity).
      change (fz 0) with (Fin 0%Qc) in Er. rewrite (regression_total_value (fun p => qpow q (Z.to_nat p))) in Er by auto. injection Er as <-. unfold polynomial. f_equal. apply Qcplus_0_l.
  - exists CMV. split; [reflexivity|]. exists v. split; [exact Hv0|]. split; [reflexivity|]. intros q cs -> nq. rewrite cvalid_Fin in C by auto. discriminate.
Qed.
Lemma c158_multi pars variables d fs : shaped d fs -> variables <> [] -> (forall p fs', znth variables p = Ok (Some fs') -> shaped d fs') -> (forall t y x, zlen (pars t y x) = zlen variables) ->
  exists out, regression_calibrator (zlen variables) pars variables d fs = Ok out /\ shaped d out /\
  forall t y x e v, 0 <= t < d_t d -> within d y x e -> element fs t y x e v -> exists w, element out t y x e w /\
    (missing v \/ Exists missing (pars t y x) -> is_missing_value w) /\
    (forall cs xs, ~ missing v -> pars t y x = map Fin cs -> no_missing cs -> predictors variables t y x e xs -> w = Fin (combination cs xs)).
Proof.
  intros H HV HS HP. unfold regression_calibrator. assert (LV : 0 < zlen variables) by (destruct variables; [congruence|]; rewrite zlen_cons; pose proof (zlen_nonneg variables); lia).
  replace (zlen variables =? 0) with false by lia. replace (0 <? zlen variables) with true by lia. rewrite Z.eqb_refl. cbn [andb negb].
  apply (elementwise d fs _ (fun t y x e v w => (missing v \/ Exists missing (pars t y x) -> is_missing_value w) /\
    (forall cs xs, ~ missing v -> pars t y x = map Fin cs -> no_missing cs -> predictors variables t y x e xs -> w = Fin (combination cs xs)))); auto.
  intros t f0 Ht Hf Sf f y x e v S W Hv0 Hv. rewrite Hv. cbn [bind]. left. destruct (cvalid v) eqn:C.
  - assert (T : forall k, 0 <= k < 0 + zlen (pars t y x) -> exists v, predictor variables k t y x e = Ok v).
    { intros k Hk. rewrite HP in Hk. unfold predictor. destruct (znth_some variables k) as [o Ho]; [lia|]. rewrite Ho. cbn [bind]. destruct o as [fs'|]; [|eauto].
      destruct (shaped_elem d fs' t y x e (HS k fs' Ho) Ht W) as (u & _ & ->). eauto. }
    destruct (regression_total_ok (fun p => predictor variables p t y x e) (pars t y x) 0 (fz 0) T) as [r Er]. rewrite Er. cbn [bind]. exists r. split; [reflexivity|]. exists v. split; [exact Hv0|]. split.
    + intros [M|M]; [apply cvalid_missing in M; congruence|]. rewrite regression_total_missing2 in Er by auto. injection Er as <-. reflexivity.
    + intros cs xs _ Hp Hc [LX HX]. assert (LC : zlen cs = zlen variables) by (rewrite <- (HP t y x), Hp, zlen_map; reflexivity).
      rewrite (regression_total_ext _ (fun p => Ok (Fin (qnth xs p)))) in Er.
      * rewrite Hp in Er. change (fz 0) with (Fin 0%Qc) in Er. rewrite (regression_total_value (fun p => qnth xs p)) in Er by auto. injection Er as <-. unfold combination. f_equal. apply Qcplus_0_l.
      * intros k Hk. rewrite HP in Hk. unfold predictor. destruct (znth_some variables k) as [o Ho]; [lia|]. rewrite Ho. cbn [bind]. specialize (HX k o Ho). destruct o as [fs'|]; [|rewrite HX; reflexivity].
        destruct HX as [HX _]. apply element_get in HX. exact HX.
  - exists CMV. split; [reflexivity|]. exists v. split; [exact Hv0|]. split; [reflexivity|]. intros cs xs M. apply cvalid_missing in C. contradiction.
Qed.
Lemma c158_refuted : exists pars variables fs out w, shaped (dims1 1) fs /\ (forall p fs', znth variables p = Ok (Some fs') -> shaped (dims1 1) fs') /\
  regression_calibrator (zlen variables) pars variables (dims1 1) fs = Ok out /\ (forall t y x, zlen (pars t y x) = zlen variables /\ Forall (fun v => ~ missing v) (pars t y x)) /\
  element fs 0 0 0 0 (fz 7) /\ predictor_missing variables 0 0 0 0 /\ element out 0 0 0 0 w /\ ~ missing w.
Proof.
  exists (fun _ _ _ => [fz 1; fz 2]), [Some (map field1 [fz 7]); Some (map field1 [CMV])], (map field1 [fz 7]), (map field1 [fz (-1991)]), (fz (-1991)).
  assert (NM : forall z, z <> -999 -> ~ missing (fz z)) by (intros z Hz M; apply Hz, qz_inj; exact M).
  split; [apply (shaped1 [fz 7])|]. split.
  { intros p fs' Hp. pose proof (znth_range _ _ _ Hp) as R. change (zlen _) with 2 in R. assert (p = 0 \/ p = 1) as [-> | ->] by lia; injection Hp as <-; [apply (shaped1 [fz 7])|apply (shaped1 [CMV])]. }
  split; [vcalc|]. split; [intros; split; [reflexivity|repeat constructor; apply NM; lia]|]. split; [apply element1; reflexivity|].
  split; [exists 1, (map field1 [CMV]), CMV; split; [reflexivity|]; split; [apply element1; reflexivity|reflexivity]|]. split; [apply element1; reflexivity|apply NM; lia].
Qed.

(** training *)
Section Train.
  Definition s_o (l : list (Qc * Qc)) : Qc := qsum (map fst l).
  Definition s_f (l : list (Qc * Qc)) : Qc := qsum (map snd l).
  Definition s_ff (l : list (Qc * Qc)) : Qc := qsum (map (fun p => snd p * snd p)%Qc l).
  Definition s_of (l : list (Qc * Qc)) : Qc := qsum (map (fun p => fst p * snd p)%Qc l).
  Definition s_oo (l : list (Qc * Qc)) : Qc := qsum (map (fun p => fst p * fst p)%Qc l).
End Train.
Lemma squared_error_sums l a b : squared_error l a b = (s_oo l - (1+1) * a * s_o l - (1+1) * b * s_of l + a * a * qlen l + (1+1) * a * b * s_f l + b * b * s_ff l)%Qc.
Proof.
  unfold squared_error, s_oo, s_o, s_of, s_f, s_ff, qlen. induction l as [|[o f] l IH]; cbn [map qsum fst snd].
  - change (zlen (@nil (Qc * Qc))) with 0. rewrite qz_0. ring.
  - rewrite IH, zlen_cons, qz_add, qz_1. ring.
Qed.
Lemma residual_nonneg l a b : (0 <= a * a * qlen l + (1+1) * a * b * s_f l + b * b * s_ff l)%Qc.
Proof.
  unfold s_f, s_ff, qlen. induction l as [|[o f] l IH]; cbn [map qsum fst snd].
  - change (zlen (@nil (Qc * Qc))) with 0. rewrite qz_0. replace (_ + _)%Qc with 0%Qc by ring. apply Qcle_refl.
  - rewrite zlen_cons, qz_add, qz_1. pose proof (qsq_nonneg (a + b * f)).
    match goal with |- (0 <= ?g)%Qc => match type of IH with (0 <= ?h)%Qc => replace g with (h + (a + b * f) * (a + b * f))%Qc by ring end end. apply (Qcplus_le_compat 0 _ 0 _); auto.
Qed.
Lemma normal_minimises l a b a' b' : (a * qlen l + b * s_f l = s_o l)%Qc -> (a * s_f l + b * s_ff l = s_of l)%Qc -> (squared_error l a b <= squared_error l a' b')%Qc.
Proof.
  intros H1 H2. rewrite !squared_error_sums. rewrite <- H1, <- H2. pose proof (residual_nonneg l (a' - a) (b' - b)) as R.
  match goal with |- (?x <= ?y)%Qc => assert (E : (y - x = (a' - a) * (a' - a) * qlen l + (1+1) * (a' - a) * (b' - b) * s_f l + (b' - b) * (b' - b) * s_ff l)%Qc) by ring end.
  rewrite <- E in R. apply Qcle_minus_iff. exact R.
Qed.
Lemma residual_zero l a b : (a * a * qlen l + (1+1) * a * b * s_f l + b * b * s_ff l = 0)%Qc -> forall p, In p l -> (a + b * snd p = 0)%Qc.
Proof.
  induction l as [|[o f] l IH]; intros H p Hp; [contradiction|].
  assert (E : (a * a * qlen ((o, f) :: l) + (1+1) * a * b * s_f ((o, f) :: l) + b * b * s_ff ((o, f) :: l) = (a * a * qlen l + (1+1) * a * b * s_f l + b * b * s_ff l) + (a + b * f) * (a + b * f))%Qc).
  { unfold s_f, s_ff, qlen. cbn [map qsum fst snd]. rewrite zlen_cons, qz_add, qz_1. ring. }
  rewrite E in H. pose proof (residual_nonneg l a b) as N1. pose proof (qsq_nonneg (a + b * f)) as N2. set (u := (a * a * qlen l + (1+1) * a * b * s_f l + b * b * s_ff l)%Qc) in *. set (v := (a + b * f)%Qc) in *.
  assert (V : (v * v = 0)%Qc) by (clearbody u v; apply Qcle_antisym; qlra). assert (U : u = 0%Qc) by (clearbody u v; apply Qcle_antisym; qlra).
  destruct Hp as [<-|Hp]; [|apply IH; auto]. cbn [snd]. fold v. apply Qcmult_integral in V. tauto.
Qed.
Lemma train_pair_step E x a b c d n : train_step E (Fin a, Fin b, Fin c, Fin d, n) x =
  Ok (Fin (a + s_o (training_pair x)), Fin (b + s_f (training_pair x)), Fin (c + s_ff (training_pair x)), Fin (d + s_of (training_pair x)), (n + zlen (training_pair x))%Z)%Qc.
Proof.
  assert (Z0 : forall a b c d n, Ok (Fin a, Fin b, Fin c, Fin d, n) = Ok (Fin (a + s_o []), Fin (b + s_f []), Fin (c + s_ff []), Fin (d + s_of []), (n + zlen (@nil (Qc * Qc)))%Z)%Qc).
  { intros. unfold s_o, s_f, s_ff, s_of. cbn [map qsum]. rewrite !Qcplus_0_r. change (zlen []) with 0. rewrite Z.add_0_r. reflexivity. }
  unfold train_step. destruct x as [obs ens]. cbn [fst snd]. destruct (stat_spec E ens CMean (qz 0)) as (w & Ew & S1 & S2); [discriminate|]. change (fz 0) with (Fin (qz 0)). rewrite Ew. cbn [bind].
  unfold training_pair. cbn [fst snd]. destruct (cvalid obs) eqn:C; cbn [andb].
  2:{ rewrite present_cons. replace (match obs with Fin q => _ | _ => _ end) with (@nil Qc); [apply Z0|]. destruct obs; auto. destruct (Qc_eq_dec q missing_number); auto. rewrite cvalid_Fin in C by auto. discriminate. }
  apply cvalid_true in C as (o & -> & no). rewrite present_cons. destruct (Qc_eq_dec o missing_number); [contradiction|]. change (present []) with (@nil Qc).
  destruct (list_eq_dec Qc_eq_dec (present ens) []) as [N|N].
  { rewrite (S1 N). change (cvalid (Fin missing_number)) with false. apply Z0. }
  destruct (S2 N) as (r & -> & ->). destruct (Qc_eq_dec (qmean (present ens)) missing_number) as [M|M].
  { rewrite M. change (cvalid (Fin missing_number)) with false. apply Z0. }
  rewrite cvalid_Fin by auto. unfold s_o, s_f, s_ff, s_of. cbn [map qsum fst snd vadd vmul]. rewrite !Qcplus_0_r. reflexivity.
Qed.
Lemma sums_app l m : s_o (l ++ m) = (s_o l + s_o m)%Qc /\ s_f (l ++ m) = (s_f l + s_f m)%Qc /\ s_ff (l ++ m) = (s_ff l + s_ff m)%Qc /\ s_of (l ++ m) = (s_of l + s_of m)%Qc.
Proof. unfold s_o, s_f, s_ff, s_of. rewrite !map_app, !qsum_app. auto. Qed.
Lemma train_fold E data : forall a b c d n, foldM (train_step E) (Fin a, Fin b, Fin c, Fin d, n) data =
  Ok (Fin (a + s_o (training_pairs data)), Fin (b + s_f (training_pairs data)), Fin (c + s_ff (training_pairs data)), Fin (d + s_of (training_pairs data)), (n + zlen (training_pairs data))%Z)%Qc.
Proof.
  induction data as [|x data IH]; intros a b c d n; cbn [foldM training_pairs flat_map].
  - unfold s_o, s_f, s_ff, s_of. cbn [map qsum]. rewrite !Qcplus_0_r. change (zlen []) with 0. rewrite Z.add_0_r. reflexivity.
  - rewrite train_pair_step. cbn [bind]. rewrite IH. fold (training_pairs data). destruct (sums_app (training_pair x) (training_pairs data)) as (-> & -> & -> & ->). rewrite zlen_app. rewrite <- !Qcplus_assoc, Z.add_assoc. reflexivity.
Qed.
Lemma train_open E order ic nv data : order <= 1 -> nv <= 0 -> training_pairs data <> [] ->
  let l := training_pairs data in
  regression_train E order ic nv data =
  let meanObs := Fin (s_o l / qlen l) in let meanForecast := Fin (s_f l / qlen l) in let meanForecast2 := Fin (s_ff l / qlen l) in let meanObsForecast := Fin (s_of l / qlen l) in
  if order =? 0 then Ok [meanObs] else if order =? 1 then
    if ic then
      let slope := vdiv (vsub meanObsForecast (vmul meanForecast meanObs)) (vsub meanForecast2 (vmul meanForecast meanForecast)) in
      Ok [vsub meanObs (vmul slope meanForecast); slope]
    else Ok [fz 0; vdiv meanObsForecast meanForecast2]
  else Abort.
Proof.
  intros H1 H2 HN l. unfold regression_train. replace (1 <? order) with false by lia. replace (0 <? nv) with false by lia. change (fz 0, fz 0, fz 0, fz 0, 0) with (Fin 0%Qc, Fin 0%Qc, Fin 0%Qc, Fin 0%Qc, 0). rewrite train_fold. cbn [bind].
  fold l. fold l in HN. assert (LP : 0 < zlen l) by (destruct l; [congruence|]; rewrite zlen_cons; pose proof (zlen_nonneg l); lia). rewrite Z.add_0_l. replace (zlen l <=? 0) with false by lia. rewrite !Qcplus_0_l.
  assert (D : forall a, vdiv (Fin a) (fz (zlen l)) = Fin (a / qlen l)%Qc).
  { intros a. change (fz (zlen l)) with (Fin (qz (zlen l))). unfold vdiv. destruct (qeqb_spec (qz (zlen l)) 0) as [K|K]; [|reflexivity]. exfalso. change 0%Qc with (qz 0) in K. apply qz_inj in K. lia. }
  rewrite !D. reflexivity.
Qed.
Lemma qlen_ne (l : list (Qc * Qc)) : l <> [] -> qlen l <> 0%Qc.
Proof.
  intros H K. unfold qlen in K. change 0%Qc with (qz 0) in K. apply qz_inj in K. destruct l; [congruence|]. rewrite zlen_cons in K. pose proof (zlen_nonneg l). lia.
Qed.
Lemma c159_mean E ic data : let l := training_pairs data in l <> [] ->
  exists a, regression_train E 0 ic 0 data = Ok [Fin a] /\ a = qmean (map fst l) /\ forall a', (squared_error l a 0 <= squared_error l a' 0)%Qc.
Proof.
  intros l H. rewrite train_open by (auto; lia). fold l. cbv zeta. cbn [Z.eqb]. eexists. split; [reflexivity|]. split; [unfold qmean, s_o, qlen; rewrite zlen_map; reflexivity|].
  intros a'. pose proof (qlen_ne l H) as N. rewrite !squared_error_sums. set (n := qlen l) in *. pose proof (residual_nonneg l (a' - s_o l / n) 0) as R. fold n in R.
  apply Qcle_minus_iff. match goal with |- (0 <= ?g)%Qc => match type of R with (0 <= ?h)%Qc => replace g with h; [exact R|field; exact N] end end.
Qed.
Lemma vsub_Fin a b : vsub (Fin a) (Fin b) = Fin (a - b)%Qc. Proof. reflexivity. Qed.
Lemma vdiv_ne a b : b <> 0%Qc -> vdiv (Fin a) (Fin b) = Fin (a / b)%Qc.
Proof. intros H. unfold vdiv. destruct (qeqb_spec b 0); [contradiction|reflexivity]. Qed.
Lemma c159_line E data : let l := training_pairs data in (exists p p', In p l /\ In p' l /\ snd p <> snd p') ->
  exists a b, regression_train E 1 true 0 data = Ok [Fin a; Fin b] /\ forall a' b', (squared_error l a b <= squared_error l a' b')%Qc.
Proof.
  intros l (p & p' & Hp & Hp' & Hd). assert (HN : l <> []) by (intros K; rewrite K in Hp; contradiction). pose proof (qlen_ne l HN) as N. rewrite train_open by (auto; lia). fold l. cbv zeta. cbn [Z.eqb Pos.eqb]. set (n := qlen l) in *.
  assert (V : (s_ff l / n - s_f l / n * (s_f l / n))%Qc <> 0%Qc).
  { intros K. assert (Z0 : ((- (s_f l / n)) * (- (s_f l / n)) * qlen l + (1+1) * (- (s_f l / n)) * 1 * s_f l + 1 * 1 * s_ff l = 0)%Qc).
    { fold n. transitivity (n * (s_ff l / n - s_f l / n * (s_f l / n)))%Qc; [field; exact N|]. rewrite K. ring. }
    pose proof (residual_zero l _ _ Z0 p Hp) as R1. pose proof (residual_zero l _ _ Z0 p' Hp') as R2. apply Hd. set (m := (s_f l / n)%Qc) in *. clearbody m. clear - R1 R2.
    transitivity m; [|symmetry]; (match goal with |- snd ?z = _ => match goal with HH : (_ + 1 * snd z = 0)%Qc |- _ => transitivity (m + (- m + 1 * snd z))%Qc; [ring|rewrite HH; ring] end end). }
  cbn [vmul]. rewrite !vsub_Fin. rewrite vdiv_ne by exact V. cbn [vmul]. rewrite vsub_Fin. eexists _, _. split; [reflexivity|].
  assert (W : (s_ff l * n - s_f l * s_f l)%Qc <> 0%Qc).
  { intros K. apply V. transitivity ((s_ff l * n - s_f l * s_f l) / (n * n))%Qc; [field; exact N|]. rewrite K. field. exact N. }
  intros a' b'. apply normal_minimises; fold n; field; repeat split; auto.
Qed.
Lemma c159_slope E data : let l := training_pairs data in (exists p, In p l /\ snd p <> 0%Qc) ->
  exists b, regression_train E 1 false 0 data = Ok [Fin 0%Qc; Fin b] /\ forall b', (squared_error l 0 b <= squared_error l 0 b')%Qc.
Proof.
  intros l (p & Hp & Hd). assert (HN : l <> []) by (intros K; rewrite K in Hp; contradiction). pose proof (qlen_ne l HN) as N. rewrite train_open by (auto; lia). fold l. cbv zeta. cbn [Z.eqb Pos.eqb]. set (n := qlen l) in *.
  assert (W : s_ff l <> 0%Qc).
  { intros K. apply Hd. assert (Z0 : (0 * 0 * qlen l + (1+1) * 0 * 1 * s_f l + 1 * 1 * s_ff l = 0)%Qc) by (rewrite K; ring). pose proof (residual_zero l _ _ Z0 p Hp) as R. transitivity (0 + 1 * snd p)%Qc; [ring|exact R]. }
  assert (V : (s_ff l / n)%Qc <> 0%Qc). { intros K. apply W. transitivity (n * (s_ff l / n))%Qc; [field; exact N|]. rewrite K. ring. }
  unfold vdiv. destruct (qeqb_spec (s_ff l / n) 0) as [K|_]; [contradiction|]. eexists. split; [reflexivity|]. intros b'. rewrite !squared_error_sums. pose proof (residual_nonneg l 0 (b' - s_of l / n / (s_ff l / n))) as R.
  apply Qcle_minus_iff. match goal with |- (0 <= ?g)%Qc => match type of R with (0 <= ?h)%Qc => replace g with h; [exact R|field; auto] end end.
Qed.
Lemma c159_checks E order ic nv data : 1 < order \/ order < 0 \/ 0 < nv \/ training_pairs data = [] -> regression_train E order ic nv data = Abort.
Proof.
  intros H. unfold regression_train. destruct (Z.ltb_spec 1 order); auto. destruct (Z.ltb_spec 0 nv); auto. change (fz 0, fz 0, fz 0, fz 0, 0) with (Fin 0%Qc, Fin 0%Qc, Fin 0%Qc, Fin 0%Qc, 0). rewrite train_fold. cbn [bind].
  rewrite Z.add_0_l. destruct (Z.leb_spec (zlen (training_pairs data)) 0) as [|L]; auto. destruct H as [H|[H|[H|H]]]; [lia| |lia|rewrite H in L; change (zlen []) with 0 in L; lia].
  replace (order =? 0) with false by lia. replace (order =? 1) with false by lia. reflexivity.
Qed.
Lemma c159_refuted : exists E data, training_pairs data <> [] /\ regression_train E 1 true 0 data = Ok [NaN; NaN].
Proof.
  exists E0, [(fz 3, [fz 2; fz 2]); (fz 5, [fz 2; fz 2])]. split; [vm_compute; discriminate|]. vcalc.
Qed.

(** mask *)
Lemma mask_near_spec n dist radius flag : mask_near n dist radius flag = true <-> flag = true \/ near n dist radius.
Proof.
  unfold mask_near, near.
  assert (T : forall k, cvalid (dist k) && vltb (dist k) (radius k) = true <-> exists q, dist k = Fin q /\ q <> missing_number /\ (radius k = PInf \/ exists r, radius k = Fin r /\ (q < r)%Qc)).
  { intros k. rewrite andb_true_iff, cvalid_true. split.
    - intros [(q & Hq & n0) L]. exists q. split; [auto|]. split; [auto|]. rewrite Hq in L. destruct (radius k) as [| | |r]; try discriminate; auto. right. exists r. split; auto. cbn in L. destruct (qltb_spec q r); [auto|discriminate].
    - intros (q & Hq & n0 & L). split; [eauto|]. rewrite Hq. destruct L as [->|(r & -> & L)]; [reflexivity|]. cbn. destruct (qltb_spec q r); [auto|contradiction]. }
  assert (G : forall l flag, fold_left (fun b k => if cvalid (dist k) && vltb (dist k) (radius k) then true else b) l flag = true <-> flag = true \/ exists k, In k l /\ cvalid (dist k) && vltb (dist k) (radius k) = true).
  { induction l as [|k l IH]; intros b; cbn [fold_left].
    - split; [auto|]. intros [|(? & [] & _)]; auto.
    - rewrite IH. destruct (cvalid (dist k) && vltb (dist k) (radius k)) eqn:E.
      + split; [intros _; right; exists k; split; [left; auto|auto]|auto].
      + split; intros [|(k' & Hk & C)]; auto; [right; exists k'; split; [right; auto|auto]|]. destruct Hk as [<-|Hk]; [congruence|]. right. eauto. }
  rewrite G. split; intros [|(k & H)]; auto; right.
  - destruct H as [Hk H]. apply in_zrange in Hk. apply T in H as (q & H). exists k, q. tauto.
  - destruct H as (q & Hk & H). exists k. split; [apply in_zrange; auto|]. apply T. exists q. exact H.
Qed.
Definition mask_step (keep timeDependent : bool) (n : Z) (dist : Z -> Z -> Z -> val) (radius : Z -> Z -> val) (d : dims) (t : Z) (st : field * list (list bool)) (c : Z * Z) : res (field * list (list bool)) :=
  let '(f, isWithinRadius) := st in let '(i, j) := c in
  flag <- get2 isWithinRadius i j ;;
  let flag := if (t =? 0) || timeDependent then mask_near n (dist i j) (radius t) flag else flag in
  isWithinRadius <- set2 isWithinRadius i j flag ;;
  f <- (if negb (eqb keep flag) then foldM (fun f e => f_set f i j e CMV) f (zrange 0 (d_e d)) else Ok f) ;;
  Ok (f, isWithinRadius).
Lemma clear_members d f i j : of_size d f -> 0 <= d_e d -> 0 <= i < d_y d -> 0 <= j < d_x d ->
  exists g, foldM (fun f e => f_set f i j e CMV) f (zrange 0 (d_e d)) = Ok g /\ of_size d g /\ (forall e, 0 <= e < d_e d -> f_get g i j e = Ok CMV) /\
    forall y x e, within d y x e -> (y, x) <> (i, j) -> f_get g y x e = f_get f y x e.
Proof.
  intros H He Hi Hj. assert (L : zlen (init1 (d_e d) CMV) = d_e d) by (rewrite zlen_init1; lia).
  destruct (set_members d f i j (init1 (d_e d) CMV) H Hi Hj L (Z.to_nat (d_e d))) as (g & E & S & G & O); [lia|]. rewrite Z2Nat.id in * by auto.
  assert (N : forall e, 0 <= e < d_e d -> znth (init1 (d_e d) CMV) e = Ok CMV) by (intros e Hr; unfold init1; rewrite znth_map_zrange by lia; reflexivity).
  exists g. split; [|split; [exact S|split; [intros e Hr; rewrite G by auto; apply N; auto|intros; apply O; auto]]]. rewrite <- E. clear - N.
  assert (X : forall l f, (forall e, In e l -> 0 <= e < d_e d) -> foldM (fun f e => f_set f i j e CMV) f l = foldM (fun f e => v <- znth (init1 (d_e d) CMV) e ;; f_set f i j e v) f l).
  { induction l as [|e l IH]; intros f1 Hl; [reflexivity|]. cbn [foldM]. rewrite N by (apply Hl; left; auto). cbn [bind]. destruct (f_set f1 i j e CMV); auto. cbn [bind]. apply IH. intros; apply Hl; right; auto. }
  apply X. intros e Hr. apply in_zrange in Hr. auto.
Qed.
Definition new_flag (timeDependent : bool) n (dist : Z -> Z -> Z -> val) (radius : Z -> Z -> val) t i j flag := if (t =? 0) || timeDependent then mask_near n (dist i j) (radius t) flag else flag.
Lemma mask_points keep td n dist radius d t : 0 <= d_e d -> forall l f F, NoDup l -> (forall i j, In (i, j) l -> 0 <= i < d_y d /\ 0 <= j < d_x d) -> of_size d f -> rect (d_y d) (d_x d) F ->
  exists g F', foldM (mask_step keep td n dist radius d t) (f, F) l = Ok (g, F') /\ of_size d g /\ rect (d_y d) (d_x d) F' /\
    (forall i j, In (i, j) l -> exists b, get2 F i j = Ok b /\ get2 F' i j = Ok (new_flag td n dist radius t i j b) /\
      forall e, 0 <= e < d_e d -> if eqb keep (new_flag td n dist radius t i j b) then f_get g i j e = f_get f i j e else f_get g i j e = Ok CMV) /\
    (forall i j, 0 <= i < d_y d -> 0 <= j < d_x d -> ~ In (i, j) l -> get2 F' i j = get2 F i j /\ forall e, 0 <= e < d_e d -> f_get g i j e = f_get f i j e).
Proof.
  intros He. induction l as [|[i j] l IH]; intros f F ND HI H HR; cbn [foldM].
  - exists f, F. split; [reflexivity|]. split; [auto|]. split; [auto|]. split; [intros ? ? []|auto].
  - destruct (HI i j (or_introl eq_refl)) as [Hi Hj]. inversion ND as [|? ? N1 N2]; subst. unfold mask_step at 1. destruct (rect_get2 (d_y d) (d_x d) F i j HR Hi Hj) as [b Hb]. rewrite Hb. cbn [bind].
    change (if (t =? 0) || td then mask_near n (dist i j) (radius t) b else b) with (new_flag td n dist radius t i j b). set (b' := new_flag td n dist radius t i j b).
    destruct (rect_set2 (d_y d) (d_x d) F i j b' HR Hi Hj) as (F1 & EF & RF & GF). rewrite EF. cbn [bind].
    assert (exists f1, (if negb (eqb keep b') then foldM (fun f e => f_set f i j e CMV) f (zrange 0 (d_e d)) else Ok f) = Ok f1 /\ of_size d f1 /\
      (forall e, 0 <= e < d_e d -> if eqb keep b' then f_get f1 i j e = f_get f i j e else f_get f1 i j e = Ok CMV) /\
      forall y x e, within d y x e -> (y, x) <> (i, j) -> f_get f1 y x e = f_get f y x e) as (f1 & E1 & S1 & G1 & O1).
    { destruct (eqb keep b'); cbn [negb]; [exists f; auto|]. apply clear_members; auto. }
    rewrite E1. cbn [bind]. destruct (IH f1 F1 N2) as (g & F' & Eg & Sg & RF' & Gg & Og); auto; [intros; apply HI; right; auto|].
    exists g, F'. split; [exact Eg|]. split; [exact Sg|]. split; [exact RF'|]. split.
    + intros y x [[= <- <-]|Hc].
      * exists b. split; [exact Hb|]. destruct (Og i j Hi Hj N1) as [O2 O3]. split; [rewrite O2, GF by lia; rewrite !Z.eqb_refl; reflexivity|]. fold b'. intros e Hr. rewrite O3 by auto. apply G1; auto.
      * destruct (Gg y x Hc) as (c & C1 & C2 & C3). exists c. assert (NE : (y, x) <> (i, j)) by (intros [= -> ->]; contradiction). destruct (HI y x (or_intror Hc)) as [Hy Hx].
        rewrite GF in C1 by lia. replace ((y =? i) && (x =? j)) with false in C1 by (symmetry; apply not_true_is_false; intros K; apply NE; f_equal; lia). split; [exact C1|]. split; [exact C2|].
        intros e Hr. specialize (C3 e Hr). rewrite (O1 y x e) in C3; [exact C3|repeat split; lia|exact NE].
    + intros y x Hy Hx Hn. assert (NE : (y, x) <> (i, j)) by (intros [= -> ->]; apply Hn; left; auto). destruct (Og y x Hy Hx) as [O2 O3]; [intros Hc; apply Hn; right; auto|]. split.
      * rewrite O2, GF by lia. replace ((y =? i) && (x =? j)) with false by (symmetry; apply not_true_is_false; intros K; apply NE; f_equal; lia). reflexivity.
      * intros e Hr. rewrite O3 by auto. apply O1; [repeat split; lia|exact NE].
Qed.
Lemma reached_step td n dist radius t : 0 <= t -> (reached td n dist radius t <-> (0 < t /\ reached td n dist radius (t - 1)) \/ ((t = 0 \/ td = true) /\ near n dist (radius t))).
Proof.
  intros Ht. split.
  - intros (t' & R & K & N). destruct (Z.eq_dec t' t) as [->|Hne]; [right; auto|]. left. split; [lia|]. exists t'. split; [lia|]. auto.
  - intros [[Hp (t' & R & K & N)]|[K N]]; [exists t'; split; [lia|]; auto|exists t; split; [lia|]; auto].
Qed.
Lemma mask_prefix keep td n dist radius d fs : shaped d fs -> forall m, Z.of_nat m <= d_t d -> exists out F,
  foldM (fun st t => let '(out, isWithinRadius) := st in
    f <- znth fs t ;;
    '(f, isWithinRadius) <- foldM (mask_step keep td n dist radius d t) (f, isWithinRadius) (flat_map (fun i => map (fun j => (i, j)) (zrange 0 (d_x d))) (zrange 0 (d_y d))) ;;
    Ok (out ++ [f], isWithinRadius)) ([], init2 (d_y d) (d_x d) false) (zrange 0 (Z.of_nat m)) = Ok (out, F) /\ zlen out = Z.of_nat m /\ Forall (of_size d) out /\ rect (d_y d) (d_x d) F /\
  (forall i j, 0 <= i < d_y d -> 0 <= j < d_x d -> exists b, get2 F i j = Ok b /\ (b = true <-> 0 < Z.of_nat m /\ reached td n (dist i j) radius (Z.of_nat m - 1))) /\
  forall t y x e v, 0 <= t < Z.of_nat m -> within d y x e -> element fs t y x e v -> exists w, element out t y x e w /\
    ((keep = true <-> reached td n (dist y x) radius t) -> w = v) /\ (~ (keep = true <-> reached td n (dist y x) radius t) -> is_missing_value w).
Proof.
  intros H. pose proof H as (H0 & H1 & H2 & H3 & HL & HF). induction m as [|m IH]; intros Hm.
  - exists [], (init2 (d_y d) (d_x d) false). split; [reflexivity|]. split; [reflexivity|]. split; [constructor|]. split; [apply rect_init2; auto|]. split; [|intros; lia].
    intros i j Hi Hj. exists false. split; [|split; [discriminate|lia]]. unfold get2, init2, init1. rewrite znth_map_zrange by lia. cbn [bind]. rewrite znth_map_zrange by lia. reflexivity.
  - destruct IH as (out & F & E & L & S & R & GF & GO); [lia|]. rewrite Nat2Z.inj_succ, (zrange_snoc 0 (Z.succ (Z.of_nat m))) by lia. replace (Z.succ (Z.of_nat m) - 1) with (Z.of_nat m) by lia. rewrite foldM_app, E. cbn [bind foldM].
    destruct (shaped_nth d fs (Z.of_nat m) H) as (f & Ef & Sf); [lia|]. rewrite Ef. cbn [bind].
    destruct (mask_points keep td n dist radius d (Z.of_nat m) H3 (flat_map (fun i => map (fun j => (i, j)) (zrange 0 (d_x d))) (zrange 0 (d_y d))) f F (NoDup_points _ _)) as (g & F' & Eg & Sg & RF & Gg & _); auto.
    { intros i j Hc. apply in_points in Hc. auto. }
    rewrite Eg. cbn [bind]. exists (out ++ [g]), F'. split; [reflexivity|]. split; [rewrite zlen_app, L; change (zlen [g]) with 1; lia|]. split; [apply Forall_app; auto|]. split; [exact RF|].
    assert (FL : forall i j, 0 <= i < d_y d -> 0 <= j < d_x d -> exists b, get2 F i j = Ok b /\ (new_flag td n dist radius (Z.of_nat m) i j b = true <-> reached td n (dist i j) radius (Z.of_nat m))).
    { intros i j Hi Hj. destruct (GF i j Hi Hj) as (b & Hb & B). exists b. split; [exact Hb|]. rewrite reached_step by lia. unfold new_flag. destruct (Z.eqb_spec (Z.of_nat m) 0) as [Z0|Z0]; cbn [orb].
      - rewrite mask_near_spec, B. tauto.
      - destruct td; cbn [orb]; [rewrite mask_near_spec, B; tauto|]. rewrite B. split; [auto|]. intros [|[[|] _]]; auto; [lia|discriminate]. }
    split.
    + intros i j Hi Hj. destruct (Gg i j) as (b & B1 & B2 & _); [apply in_points; auto|]. destruct (FL i j Hi Hj) as (b2 & B3 & B4). assert (b2 = b) by congruence. subst b2. eexists. split; [exact B2|].
      rewrite B4. split; [intros; split; [lia|auto]|tauto].
    + intros t y x e v Ht W Hv. destruct (Z.eq_dec t (Z.of_nat m)) as [->|Hne].
      * destruct W as (Wy & Wx & We). destruct (Gg y x) as (b & B1 & _ & B2); [apply in_points; auto|]. destruct (FL y x Wy Wx) as (b2 & B3 & B4). assert (b2 = b) by congruence. subst b2.
        destruct Hv as (f2 & Ef2 & Hv). assert (f2 = f) by congruence. subst f2. specialize (B2 e We). set (nf := new_flag td n dist radius (Z.of_nat m) y x b) in *.
        assert (NT : znth (out ++ [g]) (Z.of_nat m) = Ok g) by (rewrite <- L, znth_app_r, Z.sub_diag by lia; reflexivity).
        destruct (eqb keep nf) eqn:EK.
        -- apply eqb_prop in EK. exists v. split; [exists g; split; [exact NT|rewrite B2; auto]|]. split; [auto|]. intros K. exfalso. apply K. rewrite EK. exact B4.
        -- apply eqb_false_iff in EK. exists CMV. split; [exists g; auto|]. split; [|intros; reflexivity]. intros K. exfalso. apply EK. rewrite <- B4 in K. destruct keep, nf; auto; [symmetry; tauto|tauto].
      * destruct (GO t y x e v) as (w & (g2 & G2 & G3) & Hw); auto; [lia|]. exists w. split; [|exact Hw]. exists g2. split; [|exact G3]. rewrite znth_app_l by lia. exact G2.
Qed.
Lemma c160_gen keep td n dist radius d fs : shaped d fs -> exists out, mask_calibrator keep td n dist radius d fs = Ok out /\ shaped d out /\
  forall t y x e v, 0 <= t < d_t d -> within d y x e -> element fs t y x e v -> exists w, element out t y x e w /\
    ((keep = true <-> reached td n (dist y x) radius t) -> w = v) /\ (~ (keep = true <-> reached td n (dist y x) radius t) -> is_missing_value w).
Proof.
  intros H. pose proof H as (H0 & H1 & H2 & H3 & HL & HF). destruct (mask_prefix keep td n dist radius d fs H (Z.to_nat (d_t d))) as (out & F & E & L & S & _ & _ & G); [lia|]. rewrite Z2Nat.id in * by auto.
  exists out. split; [|split; [repeat split; auto|exact G]]. unfold mask_calibrator. unfold mask_step in E. rewrite E. reflexivity.
Qed.
Lemma c160 keep n dist radius d fs : shaped d fs -> exists out, mask_calibrator keep false n dist radius d fs = Ok out /\ shaped d out /\
  forall t y x e v, 0 <= t < d_t d -> within d y x e -> element fs t y x e v -> exists w, element out t y x e w /\
    (near n (dist y x) (radius 0) -> if keep then w = v else is_missing_value w) /\ (~ near n (dist y x) (radius 0) -> if keep then is_missing_value w else w = v).
Proof.
  intros H. destruct (c160_gen keep false n dist radius d fs H) as (out & E & S & G). exists out. split; [exact E|]. split; [exact S|]. intros t y x e v Ht W Hv. destruct (G t y x e v Ht W Hv) as (w & Hw & G1 & G2).
  exists w. split; [exact Hw|]. assert (K : reached false n (dist y x) radius t <-> near n (dist y x) (radius 0)).
  { split; [intros (t' & _ & [->|[=]] & N); exact N|]. intros N. exists 0. split; [lia|]. auto. }
  rewrite K in G1, G2. split; intros N; destruct keep; [apply G1; tauto|apply G2; intros [? X]; specialize (X N); discriminate|apply G2; tauto|apply G1; split; [discriminate|contradiction]].
Qed.
(** a point that was inside at the first time stays inside *)
Lemma c160_refuted : exists n dist radius fs out v, shaped (dims1 2) fs /\ mask_calibrator true true n dist radius (dims1 2) fs = Ok out /\ ~ near n (dist 0 0) (radius 1) /\ element fs 1 0 0 0 v /\ ~ missing v /\ element out 1 0 0 0 v.
Proof.
  exists 1, (fun _ _ _ => fz 100), (fun t _ => if t =? 0 then fz 200 else fz 50), (map field1 [fz 1; fz 2]), (map field1 [fz 1; fz 2]), (fz 2).
  split; [apply (shaped1 [fz 1; fz 2])|]. split; [vcalc|]. split; [|split; [apply element1; reflexivity|split; [intros K; apply qz_inj in K; lia|apply element1; reflexivity]]].
  intros (k & q & _ & [= <-] & _ & [K|(r & [= <-] & L)]); [discriminate|]. revert L. apply Qcle_not_lt. vm_compute. discriminate.
Qed.

(** override *)
Definition writes (d : dims) (v : val) (P : Z -> Z -> Z -> bool) (f g : field) : Prop :=
  of_size d g /\ forall y x e, within d y x e -> f_get g y x e = if P y x e then Ok v else f_get f y x e.
Lemma fold_writes d v body (P : Z -> Z -> Z -> Z -> bool) l : (forall i f, In i l -> of_size d f -> exists g, body f i = Ok g /\ writes d v (P i) f g) ->
  forall f, of_size d f -> exists g, foldM body f l = Ok g /\ writes d v (fun y x e => existsb (fun i => P i y x e) l) f g.
Proof.
  induction l as [|i l IH]; intros HB f H; cbn [foldM].
  - exists f. split; [reflexivity|]. split; [auto|]. intros; reflexivity.
  - destruct (HB i f (or_introl eq_refl) H) as (f1 & E1 & S1 & G1). rewrite E1. cbn [bind]. destruct (IH (fun j f2 Hj => HB j f2 (or_intror Hj)) f1 S1) as (g & E & S & G). exists g. split; [exact E|]. split; [exact S|].
    intros y x e W. rewrite G by auto. rewrite G1 by auto. cbn [existsb]. destruct (P i y x e); cbn [orb]; [destruct (existsb _ l); reflexivity|reflexivity].
Qed.
Definition override_cond (maxElevDiff : val) (pelev : Z -> val) (elev : Z -> Z -> val) (k y x : Z) : bool :=
  negb (cvalid maxElevDiff) || (cvalid (elev y x) && cvalid (pelev k) && vltb (vabs (vsub (elev y x) (pelev k))) maxElevDiff).
Definition override_bool (radius : Z) (maxElevDiff : val) (nn : Z -> Z * Z) (value pelev : Z -> val) (elev : Z -> Z -> val) (d : dims) (k y x : Z) : bool :=
  cvalid (value k) && ((0 <? fst (nn k)) && (fst (nn k) <? d_y d - 1) && (0 <? snd (nn k)) && (snd (nn k) <? d_x d - 1)) &&
  (Z.abs (y - fst (nn k)) <=? radius) && (Z.abs (x - snd (nn k)) <=? radius) && override_cond maxElevDiff pelev elev k y x.
Lemma existsb_range lo hi y : existsb (fun i => y =? i) (zrange lo hi) = (lo <=? y) && (y <? hi).
Proof.
  apply eq_true_iff_eq. rewrite existsb_exists, andb_true_iff. split.
  - intros (i & Hi & E). apply in_zrange in Hi. lia.
  - intros H. exists y. split; [apply in_zrange; lia|apply Z.eqb_refl].
Qed.
Lemma override_step_ok radius maxElevDiff nn value pelev elev d f k : of_size d f ->
  exists g, override_step radius maxElevDiff nn value pelev elev d f k = Ok g /\ writes d (value k) (fun y x _ => override_bool radius maxElevDiff nn value pelev elev d k y x) f g.
Proof.
  intros H. unfold override_step, override_bool. destruct (nn k) as [Y X]. cbn [fst snd].
  destruct (cvalid (value k)) eqn:C; cbn [andb]; [|exists f; split; [reflexivity|]; split; auto].
  destruct ((0 <? Y) && (Y <? d_y d - 1) && (0 <? X) && (X <? d_x d - 1)) eqn:B; cbn [andb]; [|exists f; split; [reflexivity|]; split; auto].
  set (cond := override_cond maxElevDiff pelev elev k).
  destruct (fold_writes d (value k) (fun f e => foldM (fun f y => foldM (fun f x =>
        if negb (cvalid maxElevDiff) then f_set f y x e (value k)
        else if cvalid (elev y x) && cvalid (pelev k) then
          if vltb (vabs (vsub (elev y x) (pelev k))) maxElevDiff then f_set f y x e (value k) else Ok f
        else Ok f)
        f (zrange (Z.max 0 (X - radius)) (Z.min (d_x d - 1) (X + radius) + 1)))
        f (zrange (Z.max 0 (Y - radius)) (Z.min (d_y d - 1) (Y + radius) + 1)))
      (fun e' y x e => existsb (fun y' => existsb (fun x' => (y =? y') && (x =? x') && (e =? e') && cond y' x') (zrange (Z.max 0 (X - radius)) (Z.min (d_x d - 1) (X + radius) + 1))) (zrange (Z.max 0 (Y - radius)) (Z.min (d_y d - 1) (Y + radius) + 1))) (zrange 0 (d_e d))) with (f := f) as (g & E & S & G); auto.
  - intros e' f1 He' S1. apply in_zrange in He'.
    apply (fold_writes d (value k) _ (fun y' y x e => existsb (fun x' => (y =? y') && (x =? x') && (e =? e') && cond y' x') (zrange (Z.max 0 (X - radius)) (Z.min (d_x d - 1) (X + radius) + 1)))); auto.
    intros y' f2 Hy' S2. apply in_zrange in Hy'. apply (fold_writes d (value k) _ (fun x' y x e => (y =? y') && (x =? x') && (e =? e') && cond y' x')); auto.
    intros x' f3 Hx' S3. apply in_zrange in Hx'. assert (W : within d y' x' e') by (repeat split; lia).
    assert (WS : exists g, f_set f3 y' x' e' (value k) = Ok g /\ writes d (value k) (fun y x e => (y =? y') && (x =? x') && (e =? e') && true) f3 g).
    { destruct (f_set_size d f3 y' x' e' (value k) S3 W) as (g & Eg & Sg & Gg & Og). exists g. split; [exact Eg|]. split; [exact Sg|]. intros y x e W'. rewrite andb_true_r.
      destruct ((y =? y') && (x =? x') && (e =? e')) eqn:K; [assert (y = y' /\ x = x' /\ e = e') as (-> & -> & ->) by lia; exact Gg|]. apply Og; auto. intros [= -> -> ->]. lia. }
    assert (WN : exists g, Ok f3 = Ok g /\ writes d (value k) (fun y x e => (y =? y') && (x =? x') && (e =? e') && false) f3 g).
    { exists f3. split; [reflexivity|]. split; [auto|]. intros. rewrite andb_false_r. reflexivity. }
    unfold cond, override_cond. destruct (negb (cvalid maxElevDiff)); cbn [orb]; [exact WS|]. destruct (cvalid (elev y' x') && cvalid (pelev k)); cbn [andb]; [|exact WN].
    destruct (vltb (vabs (vsub (elev y' x') (pelev k))) maxElevDiff); [exact WS|exact WN].
  - exists g. split; [exact E|]. split; [exact S|]. intros y x e W. rewrite G by auto.
    match goal with |- (if ?a then _ else _) = (if ?b then _ else _) => replace a with b; [reflexivity|] end. symmetry. apply eq_true_iff_eq. rewrite existsb_exists. split.
    + intros (e' & He' & K). apply existsb_exists in K as (y' & Hy' & K). apply existsb_exists in K as (x' & Hx' & K). apply in_zrange in He', Hy', Hx'.
      apply andb_true_iff in K as [K1 K2]. assert (y = y' /\ x = x') as [-> ->] by lia. rewrite K2. lia.
    + intros K. apply andb_true_iff in K as [K1 K2]. destruct W as (Wy & Wx & We). exists e. split; [apply in_zrange; lia|]. apply existsb_exists. exists y. split; [apply in_zrange; lia|]. apply existsb_exists. exists x. split; [apply in_zrange; lia|].
      rewrite !Z.eqb_refl, K2. reflexivity.
Qed.
Lemma override_bool_spec radius (maxElevDiff : option Qc) nn value pelev elev d k y x : (forall m, maxElevDiff = Some m -> m <> missing_number) ->
  (override_bool radius (match maxElevDiff with Some m => Fin m | None => Fin missing_number end) nn value pelev elev d k y x = true <-> overrides radius maxElevDiff nn value pelev elev d k y x).
Proof.
  intros HM. unfold override_bool, overrides. rewrite !andb_true_iff, cvalid_true, !Z.leb_le, !Z.ltb_lt.
  assert (CE : override_cond (match maxElevDiff with Some m => Fin m | None => Fin missing_number end) pelev elev k y x = true <->
    forall m, maxElevDiff = Some m -> exists a b, elev y x = Fin a /\ pelev k = Fin b /\ a <> missing_number /\ b <> missing_number /\ (- m < a - b < m)%Qc).
  { unfold override_cond. destruct maxElevDiff as [m|].
    - rewrite cvalid_Fin by auto. cbn [negb orb]. rewrite !andb_true_iff, !cvalid_true. split.
      + intros [[(a & Ha & na) (b & Hb & nb)] L] ? [= <-]. exists a, b. rewrite Ha, Hb in L. change (vsub (Fin a) (Fin b)) with (Fin (a - b)%Qc) in L. repeat (split; [assumption|]).
        cbn in L. destruct (qltb_spec (if qltb (a - b) 0 then - (a - b) else a - b)%Qc m) as [L'|L']; [|discriminate]. destruct (qltb_spec (a - b) 0); split; qlra.
      + intros HH. destruct (HH m eq_refl) as (a & b & Ha & Hb & na & nb & L). split; [split; eauto|]. rewrite Ha, Hb. change (vsub (Fin a) (Fin b)) with (Fin (a - b)%Qc). cbn.
        destruct (qltb_spec (if qltb (a - b) 0 then - (a - b) else a - b)%Qc m) as [L'|L']; [reflexivity|]. exfalso. apply L'. destruct L. destruct (qltb_spec (a - b) 0); qlra.
    - change (cvalid (Fin missing_number)) with false. cbn [negb orb]. split; [discriminate|reflexivity]. }
  rewrite CE. tauto.
Qed.
Lemma c161 radius (maxElevDiff : option Qc) n nn values pelev elev d fs : shaped d fs -> 0 <= n -> (forall m, maxElevDiff = Some m -> m <> missing_number) ->
  exists out, override_calibrator 1 true radius (match maxElevDiff with Some m => Fin m | None => Fin missing_number end) n nn values pelev elev d fs = Ok out /\ shaped d out /\
  forall t y x e v, 0 <= t < d_t d -> within d y x e -> element fs t y x e v -> exists w, element out t y x e w /\
    ((forall k, 0 <= k < n -> ~ overrides radius maxElevDiff nn (values t) pelev elev d k y x) -> w = v) /\
    (forall k, 0 <= k < n -> overrides radius maxElevDiff nn (values t) pelev elev d k y x -> (forall k', k < k' < n -> ~ overrides radius maxElevDiff nn (values t) pelev elev d k' y x) -> w = values t k).
Proof.
  intros H Hn HM. set (med := match maxElevDiff with Some m => Fin m | None => Fin missing_number end). unfold override_calibrator. cbn [Z.eqb Pos.eqb negb].
  assert (K : forall t f, of_size d f -> forall m, exists g, foldM (override_step radius med nn (values t) pelev elev d) f (zrange 0 (Z.of_nat m)) = Ok g /\ of_size d g /\ forall y x e v, within d y x e -> f_get f y x e = Ok v ->
    exists w, f_get g y x e = Ok w /\ ((forall k, 0 <= k < Z.of_nat m -> ~ overrides radius maxElevDiff nn (values t) pelev elev d k y x) -> w = v) /\
    (forall k, 0 <= k < Z.of_nat m -> overrides radius maxElevDiff nn (values t) pelev elev d k y x -> (forall k', k < k' < Z.of_nat m -> ~ overrides radius maxElevDiff nn (values t) pelev elev d k' y x) -> w = values t k)).
  { intros t f Hf. induction m as [|m IH].
    - exists f. split; [reflexivity|]. split; [auto|]. intros y x e v W Hv. exists v. split; [auto|]. split; [auto|]. intros; lia.
    - destruct IH as (g & E & S & G). rewrite Nat2Z.inj_succ, zrange_snoc by lia. replace (Z.succ (Z.of_nat m) - 1) with (Z.of_nat m) by lia. rewrite foldM_app, E. cbn [bind foldM].
      destruct (override_step_ok radius med nn (values t) pelev elev d g (Z.of_nat m) S) as (g' & E' & S' & G'). rewrite E'. cbn [bind]. exists g'. split; [reflexivity|]. split; [exact S'|].
      intros y x e v W Hv. destruct (G y x e v W Hv) as (w & Hw & G1 & G2). rewrite G' by auto. pose proof (override_bool_spec radius maxElevDiff nn (values t) pelev elev d (Z.of_nat m) y x HM) as OS. fold med in OS.
      destruct (override_bool radius med nn (values t) pelev elev d (Z.of_nat m) y x).
      + exists (values t (Z.of_nat m)). split; [reflexivity|]. assert (O : overrides radius maxElevDiff nn (values t) pelev elev d (Z.of_nat m) y x) by (apply OS; auto). split.
        * intros N. exfalso. apply (N (Z.of_nat m)); [lia|auto].
        * intros k Hk Ok' L. destruct (Z.eq_dec k (Z.of_nat m)) as [->|Hne]; auto. exfalso. apply (L (Z.of_nat m)); [lia|auto].
      + exists w. split; [exact Hw|]. assert (O : ~ overrides radius maxElevDiff nn (values t) pelev elev d (Z.of_nat m) y x) by (intros K; apply OS in K; discriminate). split.
        * intros N. apply G1. intros k Hk. apply N. lia.
        * intros k Hk Ok' L. destruct (Z.eq_dec k (Z.of_nat m)) as [->|Hne]; [contradiction|]. apply G2; auto; [lia|]. intros k' Hk'. apply L. lia. }
  destruct (each_time_ok d fs (fun t => f <- znth fs t ;; foldM (override_step radius med nn (values t) pelev elev d) f (zrange 0 n)) (fun t g => forall y x e v, within d y x e -> element fs t y x e v ->
    exists w, f_get g y x e = Ok w /\ ((forall k, 0 <= k < n -> ~ overrides radius maxElevDiff nn (values t) pelev elev d k y x) -> w = v) /\
    (forall k, 0 <= k < n -> overrides radius maxElevDiff nn (values t) pelev elev d k y x -> (forall k', k < k' < n -> ~ overrides radius maxElevDiff nn (values t) pelev elev d k' y x) -> w = values t k)) H) as (out & E & S & G).
  { intros t Ht. destruct (shaped_nth d fs t H Ht) as (f & Ef & Sf). rewrite Ef. cbn [bind]. destruct (K t f Sf (Z.to_nat n)) as (g & Eg & Sg & Gg). rewrite Z2Nat.id in * by auto. exists g. split; [exact Eg|]. split; [exact Sg|].
    intros y x e v W (f2 & Ef2 & Hv). assert (f2 = f) by congruence. subst f2. apply Gg; auto. }
  exists out. split; [exact E|]. split; [exact S|]. intros t y x e v Ht W Hv. destruct (G t Ht) as (g & Hg & Pg). destruct (Pg y x e v W Hv) as (w & Hw & R). exists w. split; [exists g; auto|exact R].
Qed.
Lemma c161_checks np ld radius med n nn values pelev elev d fs : np <> 1 \/ ld = false -> override_calibrator np ld radius med n nn values pelev elev d fs = Abort.
Proof. intros H. unfold override_calibrator. destruct (Z.eqb_spec np 1); cbn [negb]; auto. destruct H as [|H]; [contradiction|]. rewrite H. reflexivity. Qed.
