From Coq Require Import Permutation.
From Verif Require Import Base ListLib QcTac M_Stat S_Stat P_Stat P_Even M_COpt M_CUtil S_CUtil P_CUtil M_CCal S_CCal P_CCal M_CCal2 M_CGradient P_NeighAll P_CorrPts M_CDist S_CDist P_CDist P_CGauss.
Local Open Scope Z_scope.

(** sums that become missing *)
Lemma sticky_CMV add l : forall n, fold_left (sticky add) l (CMV, n) = (CMV, n).
Proof. induction l as [|v l IH]; intros n; [reflexivity|]. cbn [fold_left]. unfold sticky at 2. rewrite cvalid_MV, andb_false_r. apply IH. Qed.
Lemma sticky_missing add l : Exists missing l -> forall st, fst (fold_left (sticky add) l st) = CMV.
Proof.
  induction 1 as [v l M|v l _ IH]; intros [s n]; cbn [fold_left]; [|apply IH]. unfold sticky at 2. apply cvalid_missing in M. rewrite M. cbn [andb]. rewrite sticky_CMV. reflexivity.
Qed.
Lemma sticky_sum (h : Qc -> Qc) add l : (forall x, In x l -> add (Fin x) = Fin (h x) /\ (0 <= h x)%Qc) -> no_missing l -> forall s n, (0 <= s)%Qc ->
  fold_left (sticky add) (map Fin l) (Fin s, n) = (Fin (s + qsum (map h l))%Qc, n + zlen l).
Proof.
  induction l as [|x l IH]; intros HA NM s n Hs.
  - cbn. change (zlen (@nil Qc)) with 0. rewrite Qcplus_0_r, Z.add_0_r. reflexivity.
  - inversion NM as [|? ? N1 N2]; subst. destruct (HA x (or_introl eq_refl)) as [A1 A2]. cbn [map fold_left]. unfold sticky at 2. rewrite (cvalid_Fin x) by auto. rewrite (cvalid_Fin s) by (apply nonneg_not_missing; auto). cbn [andb]. rewrite A1. cbn [vadd].
    rewrite IH; auto; [|intros; apply HA; right; auto|qlra]. cbn [qsum]. rewrite zlen_cons. f_equal; [f_equal; ring|lia].
Qed.
Lemma sq_nonneg x : (0 <= x * x)%Qc.
Proof. qnra. Qed.
Lemma bct_stats_ok E l : l <> [] -> no_missing l -> (forall x, In x l -> 0 <= x)%Qc -> bct_stats E (map Fin l) = (Fin (qmean l), Fin (ext_sqrt E (qvar l)), zlen l).
Proof.
  intros N NM HP. unfold bct_stats, fz. rewrite qz_0. rewrite (sticky_sum (fun x => x) (fun v => v)) by (try intros x Hx; auto; try split; auto; qlra). rewrite map_id, Qcplus_0_l, Z.add_0_l.
  assert (PL : 0 < zlen l) by (destruct l; [congruence|rewrite zlen_cons; pose proof (zlen_nonneg l); lia]).
  assert (SN : (0 <= qsum l)%Qc). { clear - HP. induction l as [|x l IH]; [cbn; qlra|]. cbn. assert (0 <= x)%Qc by (apply HP; left; auto). assert (0 <= qsum l)%Qc by (apply IH; intros; apply HP; right; auto). qlra. }
  rewrite (cvalid_Fin (qsum l)) by (apply nonneg_not_missing; auto). cbv zeta. rewrite vdiv_Fin by (apply qz_ne; lia). rewrite <- !(zlen_qlen l). fold (qmean l).
  assert (MN : (0 <= qmean l)%Qc). { unfold qmean. apply qdiv_nonneg; auto. rewrite zlen_qlen, <- qz_0. apply qz_lt. lia. }
  rewrite (cvalid_Fin (qmean l)) by (apply nonneg_not_missing; auto).
  rewrite (sticky_sum (fun x => (x - qmean l) * (x - qmean l))%Qc) by (try intros x Hx; auto; try split; auto; try apply sq_nonneg; qlra). rewrite Qcplus_0_l, Z.add_0_l.
  assert (VN : (0 <= qsum (map (fun x => (x - qmean l) * (x - qmean l)) l))%Qc). { generalize (qmean l). intros m. clear. induction l as [|x l IH]; [cbn; qlra|]. cbn. pose proof (sq_nonneg (x - m)). qlra. }
  rewrite cvalid_Fin by (apply nonneg_not_missing; auto). rewrite vdiv_Fin by (apply qz_ne; lia). rewrite <- (zlen_qlen l). fold (qvar l). cbn [vsqrt]. pose proof (qvar_nonneg l) as V. destruct (qltb_spec (qvar l) 0) as [L|L]; [exfalso; qlra|]. reflexivity.
Qed.
Lemma bct_stats_missing E l : Exists missing l -> fst (fst (bct_stats E l)) = CMV.
Proof.
  intros M. unfold bct_stats. pose proof (sticky_missing (fun v => v) l M (fz 0, 0)) as K. destruct (fold_left _ l (fz 0, 0)) as [s n]. cbn [fst] in K. subst s. rewrite cvalid_MV. cbn. reflexivity.
Qed.
(** the cut t-distribution *)
Section Cut.
Variables tc tq : Qc -> Qc -> Qc.
Hypothesis ST : student tc tq.
Variables sigma nu tau p : Qc.
Hypothesis Hs : (0 < sigma)%Qc.
Hypothesis Hp : (0 < p < 1)%Qc.
Let z := tq tau (bct_level tc sigma nu tau p).
Lemma level_cut : (0 < bct_level tc sigma nu tau p < 1)%Qc.
Proof.
  destruct ST as (R & _). unfold bct_level. destruct (Qc_eq_dec nu 0); [auto|]. cbv zeta. destruct (R tau (1 / (sigma * qabs nu))%Qc) as [B1 B2]. set (B := tc tau _) in *. clearbody B.
  destruct (Qclt_le_dec 0 nu); split; qnra.
Qed.
Lemma z_level : tc tau z = bct_level tc sigma nu tau p.
Proof. destruct ST as (_ & _ & _ & I). apply I, level_cut. Qed.
Lemma z_truncated : truncated_t tc sigma nu tau z = p.
Proof.
  destruct ST as (R & _ & SY & _). unfold truncated_t. rewrite z_level. unfold bct_level. destruct (Qc_eq_dec nu 0) as [|N]; [reflexivity|]. cbv zeta. unfold qabs.
  destruct (Qclt_le_dec 0 nu) as [P|P]; destruct (Qclt_le_dec nu 0) as [P'|P']; try (exfalso; apply N; apply Qcle_antisym; auto; fail); try (exfalso; qlra).
  - rewrite SY. destruct (R tau (1 / (sigma * nu))%Qc) as [B1 B2]. set (B := tc tau _) in *. clearbody B. field. intros K. assert (B = 0)%Qc by (rewrite <- K; ring). qlra.
  - replace (- (1 / (sigma * nu)))%Qc with (1 / (sigma * - nu))%Qc by (field; repeat split; intros K; first [apply N; qlra|qlra]).
    destruct (R tau (1 / (sigma * - nu))%Qc) as [B1 B2]. set (B := tc tau _) in *. clearbody B. field. intros K. qlra.
Qed.
Lemma tc_inj_lt x y : (tc tau x < tc tau y)%Qc -> (x < y)%Qc.
Proof. destruct ST as (_ & M & _). intros K. apply Qcnot_le_lt. intros L. apply Qcle_lt_or_eq in L as [L| ->]; [apply (M tau) in L|]; qlra. Qed.
Lemma base_positive : nu <> 0%Qc -> (0 < 1 + sigma * nu * z)%Qc.
Proof.
  destruct ST as (R & _ & SY & _). intros N. pose proof z_level as Z. unfold bct_level in Z. destruct (Qc_eq_dec nu 0) as [|_]; [contradiction|]. cbv zeta in Z. unfold qabs in Z.
  destruct (Qclt_le_dec 0 nu) as [P|P]; destruct (Qclt_le_dec nu 0) as [P'|P']; try (exfalso; apply N; apply Qcle_antisym; auto; fail); try (exfalso; qlra).
  - destruct (R tau (1 / (sigma * nu))%Qc) as [B1 B2]. assert (K : (- (1 / (sigma * nu)) < z)%Qc). { apply tc_inj_lt. rewrite SY, Z. set (B := tc tau _) in *. clearbody B. qnra. }
    assert (SN : (0 < sigma * nu)%Qc) by qnra. assert (I : ((1 / (sigma * nu)) * (sigma * nu) = 1)%Qc) by (field; repeat split; intros K0; first [apply N; clear - K0; qlra|clear - K0 Hs; qlra]). set (c := (1 / (sigma * nu))%Qc) in *. set (t := (sigma * nu)%Qc) in *. clearbody c t. clear - K SN I. qnra.
  - destruct (R tau (1 / (sigma * - nu))%Qc) as [B1 B2]. assert (K : (z < 1 / (sigma * - nu))%Qc). { apply tc_inj_lt. rewrite Z. set (B := tc tau _) in *. clearbody B. qnra. }
    assert (SN : (0 < sigma * - nu)%Qc) by qnra. assert (I : ((1 / (sigma * - nu)) * (sigma * - nu) = 1)%Qc) by (field; repeat split; intros K0; first [apply N; clear - K0; qlra|clear - K0 Hs; qlra]).
    replace (sigma * nu)%Qc with (- (sigma * - nu))%Qc by ring. set (c := (1 / (sigma * - nu))%Qc) in *. set (t := (sigma * - nu)%Qc) in *. clearbody c t. clear - K SN I. qnra.
Qed.
End Cut.
Lemma vmul_F x y : vmul (Fin x) (Fin y) = Fin (x * y)%Qc. Proof. reflexivity. Qed.
Lemma vadd_F x y : vadd (Fin x) (Fin y) = Fin (x + y)%Qc. Proof. reflexivity. Qed.
Lemma vabs_q x : vabs (Fin x) = Fin (qabs x).
Proof. unfold vabs, qabs. destruct (qltb_spec x 0) as [A|A]; destruct (Qclt_le_dec x 0) as [B|B]; try reflexivity; exfalso; [qlra|contradiction]. Qed.
Lemma qabs_ne x : x <> 0%Qc -> qabs x <> 0%Qc.
Proof. intros H K. apply H. unfold qabs in K. destruct (Qclt_le_dec x 0); qlra. Qed.
Definition exact_functions (ex : val -> val) (pw tc tq : val -> val -> val) (exq : Qc -> Qc) (pwq tcq tqq : Qc -> Qc -> Qc) : Prop :=
  on_numbers1 ex exq /\ on_nonneg2 pw pwq /\ on_numbers2 tc tcq /\ on_numbers2 tq tqq /\ (forall tau, tc (Fin tau) PInf = Fin 1%Qc).
Lemma bct_gives ex pw tc tq exq pwq tcq tqq par n m s : exact_functions ex pw tc tq exq pwq tcq tqq -> positive exq -> student tcq tqq -> 7 <= zlen par -> (0 <= m)%Qc -> (0 <= s)%Qc ->
  gives n (bct_inv ex pw tc tq (Fin m) (Fin s) par) (bct_law exq pwq tcq tqq par m s).
Proof.
  intros (HX & HW & HC & HQ & HI) HP ST HL Hm Hs e He. rewrite level_q by lia. pose proof (level_range n e He) as [L1 L2]. set (p := member_level n e) in *. clearbody p. unfold bct_inv, bct_law, bct_parameters.
  unfold fz at 1 2. rewrite qz_0, qz_1. cbn [vltb]. destruct (qltb_spec p 0) as [A|A]; [exfalso; qlra|]. unfold vleb at 1. cbn [vltb veqb]. destruct (qltb_spec 1 p) as [B|B]; [exfalso; qlra|]. destruct (qeqb_spec 1 p) as [C|C]; [exfalso; qlra|]. cbn [orb].
  rewrite (cvalid_Fin m), (cvalid_Fin s) by (apply nonneg_not_missing; auto). unfold fz at 1 2. rewrite qz_0. cbn [vltb]. destruct (qltb_spec m 0) as [A1|A1]; [exfalso; qlra|]. destruct (qltb_spec s 0) as [A2|A2]; [exfalso; qlra|]. cbn [orb negb].
  assert (MV0 : exists v, Ok CMV = Ok v /\ (~ missing (Fin missing_number) -> v = Fin missing_number) /\ (missing (Fin missing_number) -> missing v)).
  { exists CMV. split; [auto|]. split; [intros _; reflexivity|intros _; reflexivity]. }
  destruct (known par) as [l|] eqn:K; [|rewrite (known_none par K); cbn [negb]; apply MV0].
  apply known_some in K as [-> NM]. rewrite (known_valid l NM). cbn [negb]. rewrite zlen_map in HL. rewrite !par_get_nth by lia. cbn [bind].
  unfold fz at 1. rewrite qz_0. cbn [veqb]. destruct (qeqb_spec p 0) as [A3|A3]; [exfalso; qlra|].
  destruct l as [|a [|b [|c [|d [|ee [|f [|g l]]]]]]]; rewrite ?zlen_cons in HL; try (change (zlen (@nil Qc)) with 0 in HL; lia).
  change (qnth (a :: b :: c :: d :: ee :: f :: g :: l) 0) with a. change (qnth (a :: b :: c :: d :: ee :: f :: g :: l) 1) with b. change (qnth (a :: b :: c :: d :: ee :: f :: g :: l) 2) with c. change (qnth (a :: b :: c :: d :: ee :: f :: g :: l) 3) with d.
  change (qnth (a :: b :: c :: d :: ee :: f :: g :: l) 4) with ee. change (qnth (a :: b :: c :: d :: ee :: f :: g :: l) 5) with f. change (qnth (a :: b :: c :: d :: ee :: f :: g :: l) 6) with g.
  clear HL NM. cbv zeta. unfold fq. rewrite (HW s (Q2Qc (1 # 3)) Hs). rewrite !vmul_F, !vadd_F. rewrite (HX (c + d * pwq s (Q2Qc (1 # 3)))%Qc).
  assert (TAU : ex (if vltb (fz 10) (Fin g) then fz 10 else Fin g) = Fin (exq (if Qclt_le_dec (qz 10) g then qz 10 else g))).
  { unfold fz. cbn [vltb]. destruct (qltb_spec (qz 10) g) as [T|T]; destruct (Qclt_le_dec (qz 10) g) as [T'|T']; try (rewrite HX; reflexivity); exfalso; [qlra|contradiction]. }
  rewrite TAU. set (tau := exq (if Qclt_le_dec (qz 10) g then qz 10 else g)). clearbody tau. set (mu := (a + b * m)%Qc). clearbody mu. set (nu := (ee + f * m)%Qc). clearbody nu.
  set (sigma := exq (c + d * pwq s (Q2Qc (1 # 3)))%Qc). assert (SP : (0 < sigma)%Qc) by apply HP. clearbody sigma. clear TAU.
  rewrite vabs_q. rewrite !vmul_F. unfold fz. rewrite qz_0, qz_1.
  assert (BND : tc (Fin tau) (vdiv (Fin 1) (Fin (sigma * qabs nu))) = if Qc_eq_dec nu 0 then Fin 1%Qc else Fin (tcq tau (1 / (sigma * qabs nu)))%Qc).
  { destruct (Qc_eq_dec nu 0) as [->|N].
    - change (qabs 0) with 0%Qc. rewrite Qcmult_0_r. exact (HI tau).
    - rewrite vdiv_Fin; [apply HC|]. intros K. apply Qcmult_integral in K as [K|K]; [qlra|]. revert K. apply qabs_ne. auto. }
  rewrite BND. clear BND.
  assert (LEV : (if vleb (Fin nu) (Fin 0) then vmul (Fin p) (if Qc_eq_dec nu 0 then Fin 1%Qc else Fin (tcq tau (1 / (sigma * qabs nu)))%Qc)
      else vsub (Fin 1%Qc) (vmul (vsub (Fin 1%Qc) (Fin p)) (if Qc_eq_dec nu 0 then Fin 1%Qc else Fin (tcq tau (1 / (sigma * qabs nu)))%Qc))) = Fin (bct_level tcq sigma nu tau p)).
  { unfold bct_level, vleb, vsub. cbn [vltb veqb]. destruct (Qc_eq_dec nu 0) as [->|N].
    - destruct (qltb_spec 0 0) as [T|T]; [exfalso; qlra|]. destruct (qeqb_spec 0 0) as [T1|T1]; [|contradiction]. cbn [orb vmul]. f_equal. ring.
    - cbv zeta. destruct (qltb_spec nu 0) as [T|T]; [cbn [orb]; destruct (Qclt_le_dec 0 nu); [exfalso; qlra|reflexivity]|]. destruct (qeqb_spec nu 0) as [T1|T1]; [contradiction|]. cbn [orb]. destruct (Qclt_le_dec 0 nu) as [T2|T2]; [|exfalso; apply N, Qcle_antisym; [auto|qlra]].
      cbn [vneg vadd vmul]. f_equal. }
  rewrite LEV. clear LEV. rewrite (HQ tau _). set (z := tqq tau (bct_level tcq sigma nu tau p)).
  assert (VAL : (if negb (veqb (Fin nu) (Fin 0%Qc)) then vmul (Fin mu) (pw (vadd (Fin 1%Qc) (vmul (Fin (sigma * nu)) (Fin z))) (vdiv (Fin 1%Qc) (Fin nu))) else vmul (Fin mu) (ex (vmul (Fin sigma) (Fin z))))
    = Fin (if Qc_eq_dec nu 0 then mu * exq (sigma * z) else mu * pwq (1 + sigma * nu * z) (1 / nu))%Qc).
  { cbn [veqb]. destruct (qeqb_spec nu 0) as [T|T]; destruct (Qc_eq_dec nu 0) as [T'|T']; try contradiction; cbn [negb].
    - cbn [vmul]. rewrite HX. reflexivity.
    - cbn [vmul vadd]. rewrite vdiv_Fin by auto. rewrite HW; [reflexivity|]. assert (0 < 1 + sigma * nu * z)%Qc by (apply (base_positive tcq tqq); auto). qlra. }
  rewrite VAL. set (v := (if Qc_eq_dec nu 0 then _ else _)%Qc). eexists. split; [reflexivity|]. destruct (cvalid (Fin v)) eqn:CV; [split; [auto|]|].
  - auto.
  - split; [intros N; exfalso; apply N; apply cvalid_missing; auto|intros _; reflexivity].
Qed.
Lemma mapM_ens d f i j vs : zlen vs = d_e d -> (forall e, 0 <= e < d_e d -> znth vs e = f_get f i j e) -> mapM (fun e => f_get f i j e) (zrange 0 (d_e d)) = Ok vs.
Proof.
  intros L G. pose proof (zlen_nonneg vs). destruct (mapM_total (fun e => f_get f i j e) (fun e v => znth vs e = Ok v) (zrange 0 (d_e d))) as (ws & E & Lw & N).
  { intros e He. apply in_zrange in He. destruct (znth_some vs e) as [v Hv]; [lia|]. exists v. rewrite <- G by lia. auto. }
  rewrite E. f_equal. rewrite zlen_zrange in Lw. apply znth_ext; [lia|]. intros e He. destruct (N e e) as (v & Hv & _ & K); [apply znth_zrange; lia|]. congruence.
Qed.
Lemma present_none vs raw : vs = map Fin raw -> no_missing raw -> present vs = raw.
Proof. intros -> H. induction H as [|x l Hx H IH]; [reflexivity|]. cbn [map]. rewrite present_cons. destruct (Qc_eq_dec x missing_number); [contradiction|]. f_equal. auto. Qed.
Lemma bct_local sp E ex pw tc tq exq pwq tcq tqq d par : sorts_pairs sp -> sqrt_nonneg E -> exact_functions ex pw tc tq exq pwq tcq tqq -> positive exq -> student tcq tqq -> 0 < d_e d -> (forall i j, 7 <= zlen (par i j)) ->
  local_step d (fun vs => forall q, In (Fin q) vs -> q <> missing_number -> (0 <= q)%Qc)
    (fun i j vs ws => (Exists missing vs -> ws = vs) /\ (forall raw, vs = map Fin raw -> no_missing raw -> outcome (bct_law exq pwq tcq tqq (par i j) (capped (qz 100) (qmean raw)) (ext_sqrt E (qvar raw))) vs ws))
    (fun f c => let '(i, j) := c in bct_point sp E ex pw tc tq d (par i j) f i j).
Proof.
  intros HS HE HF HP ST He HL f i j vs H Hi Hj Ev Lv HN. destruct (ens_ok d f i j H Hi Hj He) as (vs' & Ev' & _ & Gv). assert (vs' = vs) by congruence. subst vs'. clear Ev'.
  unfold bct_point. rewrite (mapM_ens d f i j vs Lv Gv). cbn [bind]. destruct (Exists_dec missing vs missing_dec) as [M|M].
  - pose proof (bct_stats_missing E vs M) as K. destruct (bct_stats E vs) as [[m s] n]. cbn [fst] in K. subst m. rewrite cvalid_MV. cbn [andb]. destruct (keep_ok d f i j vs H He Hi Hj Ev Lv) as (g & Eg & Sg & Gg & Og). exists g, vs. do 5 (split; [auto|]). split; [auto|].
    intros raw -> NM. exfalso. revert M. apply no_missing_not. auto.
  - destruct (all_present vs) as (raw & Eraw & Nraw). { destruct (forallb cvalid vs) eqn:K; [auto|]. apply exists_missing_iff in K. contradiction. }
    assert (NE : raw <> []). { intros ->. rewrite Eraw in Lv. change (zlen (map Fin [])) with 0 in Lv. lia. }
    assert (NN : forall x, In x raw -> (0 <= x)%Qc). { intros x Hx. apply HN; [rewrite Eraw; apply in_map; auto|]. unfold no_missing in Nraw. rewrite Forall_forall in Nraw. auto. }
    assert (BS : bct_stats E vs = (Fin (qmean raw), Fin (ext_sqrt E (qvar raw)), zlen raw)) by (rewrite Eraw; apply bct_stats_ok; auto). rewrite BS.
    assert (PL : 0 < zlen raw) by (destruct raw; [congruence|rewrite zlen_cons; pose proof (zlen_nonneg raw); lia]).
    assert (MN : (0 <= qmean raw)%Qc). { unfold qmean. apply qdiv_nonneg; [|rewrite zlen_qlen, <- qz_0; apply qz_lt; lia]. clear - NN. induction raw as [|x l IH]; [cbn; qlra|]. cbn. assert (0 <= x)%Qc by (apply NN; left; auto). assert (0 <= qsum l)%Qc by (apply IH; intros; apply NN; right; auto). qlra. }
    pose proof (HE _ (qvar_nonneg raw)) as SN. rewrite !cvalid_Fin by (apply nonneg_not_missing; auto). destruct (Z.ltb_spec 0 (zlen raw)); [|lia]. cbn [andb].
    assert (CAP : (if vltb (fz 100) (Fin (qmean raw)) then fz 100 else Fin (qmean raw)) = Fin (capped (qz 100) (qmean raw))).
    { unfold fz, capped. cbn [vltb]. destruct (qltb_spec (qz 100) (qmean raw)) as [T|T]; destruct (Qclt_le_dec (qz 100) (qmean raw)) as [T'|T']; try reflexivity; exfalso; [qlra|contradiction]. }
    rewrite CAP. assert (CN : (0 <= capped (qz 100) (qmean raw))%Qc) by (unfold capped; destruct (Qclt_le_dec (qz 100) (qmean raw)); [discriminate|auto]).
    destruct (replace_ok sp d _ _ f i j vs HS H He Hi Hj (bct_gives ex pw tc tq exq pwq tcq tqq (par i j) (d_e d) _ _ HF HP ST (HL i j) CN SN) Ev Lv) as (g & ws & Eg & Sg & Lw & Gg & Og & HO).
    exists g, ws. do 5 (split; [auto|]). split; [contradiction|]. intros raw' K _. rewrite Eraw in K. apply map_Fin_inj in K. subst raw'. exact HO.
Qed.
Lemma ens_element d fs t y x f vs v : shaped d fs -> 0 < d_e d -> 0 <= t < d_t d -> 0 <= y < d_y d -> 0 <= x < d_x d -> znth fs t = Ok f -> f_ens f y x = Ok vs -> In v vs -> exists e, element fs t y x e v.
Proof.
  intros H He Ht Hy Hx Ef Ev Hv. destruct (shaped_nth d fs t H Ht) as (f' & Ef' & Sf). assert (f' = f) by congruence. subst f'. destruct (ens_ok d f y x Sf Hy Hx He) as (vs2 & Ev2 & Lv2 & Gv2). assert (vs2 = vs) by congruence. subst vs2.
  apply In_znth in Hv as [e Hv]. pose proof (znth_range _ _ _ Hv). exists e, f. split; [auto|]. rewrite <- Gv2 by lia. auto.
Qed.
Lemma c196_bct sp E ex pw tc tq exq pwq tcq tqq pars d fs : shaped d fs -> 0 < d_e d -> sorts_pairs sp -> sqrt_nonneg E -> exact_functions ex pw tc tq exq pwq tcq tqq -> positive exq -> student tcq tqq -> (forall t y x, 7 <= zlen (pars t y x)) -> no_negative fs ->
  exists out, bct_calibrator sp E ex pw tc tq pars d fs = Ok out /\ shaped d out /\
  forall t y x, 0 <= t < d_t d -> 0 <= y < d_y d -> 0 <= x < d_x d -> forall vs ws, members d fs t y x vs -> members d out t y x ws ->
    (Exists missing vs -> ws = vs) /\ (forall raw, vs = map Fin raw -> no_missing raw -> outcome (bct_law exq pwq tcq tqq (pars t y x) (capped (qz 100) (qmean raw)) (ext_sqrt E (qvar raw))) vs ws).
Proof.
  intros H He HS HE HF HP ST HL HN. unfold bct_calibrator.
  apply (points_calibrator d fs (fun vs => forall q, In (Fin q) vs -> q <> missing_number -> (0 <= q)%Qc) (fun t y x vs ws => (Exists missing vs -> ws = vs) /\ (forall raw, vs = map Fin raw -> no_missing raw -> outcome (bct_law exq pwq tcq tqq (pars t y x) (capped (qz 100) (qmean raw)) (ext_sqrt E (qvar raw))) vs ws))
    (fun t f c => let '(i, j) := c in bct_point sp E ex pw tc tq d (pars t i j) f i j)); auto.
  - intros t y x f vs Ht Hy Hx Ef Ev q Hq Nq. destruct (ens_element d fs t y x f vs (Fin q) H He Ht Hy Hx Ef Ev Hq) as [e Ee]. apply (HN t y x e q Ee Nq).
  - intros t Ht. apply bct_local; auto.
Qed.
Lemma c197 exq lg pwq tcq tqq par mean std p mu sigma nu tau : positive exq -> (forall x, lg (exq x) = x) -> power pwq -> student tcq tqq -> (0 < p < 1)%Qc -> bct_parameters exq pwq par mean std = Some (mu, sigma, nu, tau) -> (0 < mu)%Qc ->
  exists v, bct_law exq pwq tcq tqq par mean std p = Fin v /\ bct_quantile lg pwq tcq mu sigma nu tau p v.
Proof.
  intros HP HLG [PW1 PW2] ST Hp HB Hmu. unfold bct_law. rewrite HB. cbv zeta. set (z := tqq tau (bct_level tcq sigma nu tau p)). eexists. split; [reflexivity|].
  assert (SP : (0 < sigma)%Qc). { unfold bct_parameters in HB. destruct (known par) as [[|a [|b [|c [|d [|e [|f [|g l]]]]]]]|]; try discriminate. injection HB as <- <- <- <-. apply HP. }
  unfold bct_quantile, z_score. pose proof (z_truncated tcq tqq ST sigma nu tau p SP Hp) as ZT. fold z in ZT. destruct (Qc_eq_dec nu 0) as [N|N].
  - pose proof (HP (sigma * z)%Qc) as XP. split; [revert Hmu XP; clear; intros; qnra|]. replace (mu * exq (sigma * z) / mu)%Qc with (exq (sigma * z)%Qc) by (field; qlra). rewrite HLG. replace (sigma * z / sigma)%Qc with z by (field; qlra). exact ZT.
  - pose proof (base_positive tcq tqq ST sigma nu tau p SP Hp N) as BP. fold z in BP. pose proof (PW1 _ (1 / nu)%Qc BP) as XP. split; [revert Hmu XP; clear; intros; qnra|].
    replace (mu * pwq (1 + sigma * nu * z) (1 / nu) / mu)%Qc with (pwq (1 + sigma * nu * z) (1 / nu))%Qc by (field; qlra). rewrite PW2 by auto. replace ((1 + sigma * nu * z - 1) / (sigma * nu))%Qc with z by (field; split; [exact N|qlra]). exact ZT.
Qed.
