From Coq Require Import Permutation.
From Verif Require Import Base ListLib QcTac M_Stat S_Stat P_Stat P_Even M_COpt M_CUtil S_CUtil P_CUtil M_CCal S_CCal P_CCal M_CCal2 M_CGradient P_NeighAll P_CorrPts M_CDist S_CDist P_CDist.
Local Open Scope Z_scope.

Lemma gauss_sums_fold f l vs : Forall2 (fun c v => let '(y, x, e) := c in f_get f y x e = Ok v) l vs -> forall s s2 n,
  foldM (fun st c => let '(total, total2, counter) := st in let '(ii, jj, e) := c in
    value <- f_get f ii jj e ;; Ok (if cvalid value then (vadd total value, vadd total2 (vmul value value), counter + 1) else st)) (Fin s, Fin s2, n) l
  = Ok (Fin (s + qsum (present vs))%Qc, Fin (s2 + qsum (map (fun x => x * x) (present vs)))%Qc, n + zlen (present vs)).
Proof.
  induction 1 as [|[[y x] e] v l vs HV HF IH]; intros s s2 n; cbn [foldM].
  - unfold present. cbn. change (zlen (@nil Qc)) with 0. rewrite !Qcplus_0_r, Z.add_0_r. reflexivity.
  - rewrite HV. cbn [bind]. rewrite present_cons. destruct (cvalid v) eqn:C.
    + apply cvalid_true in C as (q & -> & Hq). destruct (Qc_eq_dec q missing_number); [contradiction|]. cbn [vadd vmul]. rewrite IH. cbn [map qsum]. rewrite zlen_cons. f_equal. f_equal; [f_equal; f_equal; ring|lia].
    + apply cvalid_missing in C. rewrite IH. destruct v as [| | |q]; auto. cbn in C. subst q. destruct (Qc_eq_dec missing_number missing_number); [reflexivity|contradiction].
Qed.
Lemma around_0 d i j : 0 <= i < d_y d -> 0 <= j < d_x d -> around d 0 i j = map (fun e => (i, j, e)) (zrange 0 (d_e d)).
Proof.
  intros Hi Hj. unfold around, square. rewrite !Z.sub_0_r, !Z.add_0_r, !Z.max_r, !Z.min_r by lia. rewrite (zrange_cons i) by lia. rewrite (zrange_nil (i + 1)) by lia. rewrite (zrange_cons j) by lia. rewrite (zrange_nil (j + 1)) by lia. cbn [map flat_map app].
  induction (zrange 0 (d_e d)) as [|e l IH]; [reflexivity|]. cbn [flat_map map app fst snd] in *. rewrite IH. reflexivity.
Qed.
Lemma point_values d f i j vs : 0 <= i < d_y d -> 0 <= j < d_x d -> zlen vs = d_e d -> (forall e, 0 <= e < d_e d -> znth vs e = f_get f i j e) ->
  Forall2 (fun c v => let '(y, x, e) := c in f_get f y x e = Ok v) (around d 0 i j) vs.
Proof.
  intros Hi Hj L G. rewrite around_0 by auto.
  assert (K : forall vs k, 0 <= k -> k + zlen vs = d_e d -> (forall e, 0 <= e < zlen vs -> znth vs e = f_get f i j (k + e)) -> Forall2 (fun c v => let '(y, x, e) := c in f_get f y x e = Ok v) (map (fun e => (i, j, e)) (zrange k (d_e d))) vs).
  { clear. induction vs as [|v vs IH]; intros k Hk L G.
    - change (zlen (@nil val)) with 0 in L. rewrite zrange_nil by lia. constructor.
    - rewrite zlen_cons in L. pose proof (zlen_nonneg vs). rewrite zrange_cons by lia. cbn [map]. constructor.
      + specialize (G 0). rewrite zlen_cons, Z.add_0_r in G. symmetry. rewrite <- G by lia. reflexivity.
      + apply IH; [lia|lia|]. intros e He. replace (k + 1 + e) with (k + (e + 1)) by lia. rewrite <- G by (rewrite zlen_cons; lia). rewrite znth_consS by lia. f_equal. lia. }
  apply K; [lia|lia|]. rewrite L. intros e He. apply G. lia.
Qed.

Lemma zlen_qlen (l : list Qc) : qlen l = qz (zlen l).
Proof. reflexivity. Qed.
Lemma gaussian_gives E ex exq nq par n m s : on_numbers1 ex exq -> positive exq -> 2 <= zlen par -> sqrt_nonneg E -> (0 <= s)%Qc -> gives n (gaussian_inv ex nq (Fin m) (Fin s) par) (gaussian_law exq nq par m s).
Proof.
  intros HX HP HL HS Hs e He. rewrite level_q by lia. pose proof (level_range n e He) as [L1 L2]. set (p := member_level n e) in *. clearbody p. unfold gaussian_inv, gaussian_law.
  unfold fz. rewrite qz_0, qz_1. cbn [vltb]. destruct (qltb_spec p 0) as [A|A]; [exfalso; qlra|]. unfold vleb. cbn [vltb veqb]. destruct (qltb_spec 1 p) as [B|B]; [exfalso; qlra|]. destruct (qeqb_spec 1 p) as [C|C]; [exfalso; qlra|]. cbn [orb].
  assert (SV : cvalid (Fin s) = true) by (apply cvalid_Fin, nonneg_not_missing; auto). rewrite SV. cbn [negb]. rewrite orb_false_r.
  assert (MV0 : forall b, exists v, Ok CMV = Ok v /\ (~ missing (Fin missing_number) -> v = b) /\ (missing (Fin missing_number) -> missing v)).
  { intros b. exists CMV. split; [auto|]. split; [intros K; exfalso; apply K; reflexivity|intros _; reflexivity]. }
  destruct (Qclt_le_dec 0 m) as [M|M].
  - rewrite (cvalid_Fin m) by (apply nonneg_not_missing; qlra). cbn [negb]. destruct (qltb_spec m 0) as [A2|A2]; [exfalso; qlra|]. destruct (qltb_spec s 0) as [A3|A3]; [exfalso; qlra|]. cbn [orb].
    destruct (known par) as [l|] eqn:K.
    + apply known_some in K as [-> NM]. rewrite (known_valid l NM). cbn [negb]. rewrite zlen_map in HL. rewrite !par_get_nth by lia. cbn [bind].
      destruct l as [|a [|b l]]; [change (zlen (@nil Qc)) with 0 in HL; lia|rewrite zlen_cons in HL; change (zlen (@nil Qc)) with 0 in HL; lia|]. change (qnth (a :: b :: l) 0) with a. change (qnth (a :: b :: l) 1) with b. cbn [vmul vadd]. rewrite (HX _).
      set (g := exq (a + b * s)%Qc). assert (Hg : (0 < g)%Qc) by apply HP. clearbody g. cbn [vltb veqb]. destruct (qeqb_spec m 0) as [A4|A4]; [exfalso; qlra|]. destruct (qltb_spec g 0) as [A5|A5]; [exfalso; qlra|]. destruct (qeqb_spec g 0) as [A6|A6]; [exfalso; qlra|]. cbn [orb].
      rewrite (cvalid_Fin g) by (apply nonneg_not_missing; qlra). cbn [negb]. rewrite ?(cvalid_Fin m) by (apply nonneg_not_missing; qlra). cbn [negb orb]. set (v := nq (Fin m) (Fin g) (Fin p)). clearbody v. eexists. split; [reflexivity|]. destruct (cvalid v) eqn:CV; [split; [auto|]|].
      * auto.
      * split; [intros N; exfalso; apply N; apply cvalid_missing; auto|intros _; reflexivity].
    + rewrite (known_none par K). cbn [negb]. apply MV0.
  - assert (R : exists v, (if negb (cvalid (Fin m)) then Ok CMV else if (qltb m 0 || qltb s 0)%bool then Ok CMV else if negb (par_valid par) then Ok CMV else sa <- par_get par 0;; sb <- par_get par 1;;
       (let sigma := ex (vadd sa (vmul sb (Fin s))) in if (vltb (Fin m) (Fin 0) || veqb (Fin m) (Fin 0) || (vltb sigma (Fin 0) || veqb sigma (Fin 0)))%bool then Ok CMV else if (negb (cvalid (Fin m)) || negb (cvalid sigma))%bool then Ok CMV else
        let value := nq (Fin m) sigma (Fin p) in Ok (if cvalid value then value else CMV))) = Ok v /\ missing v).
    { destruct (negb (cvalid (Fin m))); [exists CMV; split; reflexivity|]. destruct (qltb_spec m 0) as [A1|A1]; [exists CMV; split; reflexivity|]. assert (m = 0%Qc) by (apply Qcle_antisym; [auto|qlra]). subst m. cbn [orb].
      destruct (qltb s 0); [exists CMV; split; reflexivity|]. destruct (par_valid par); [|exists CMV; split; reflexivity]. cbn [negb]. unfold par_get. destruct (znth_some par 0) as [a ->]; [lia|]. destruct (znth_some par 1) as [b ->]; [lia|]. cbn. exists CMV; split; reflexivity. }
    destruct R as (v & E1 & E2). exists v. split; [exact E1|]. assert (MM : missing (match known par with Some (_ :: _ :: _) => Fin missing_number | _ => Fin missing_number end)) by (destruct (known par) as [[|? [|? ?]]|]; reflexivity).
    destruct (known par) as [[|? [|? ?]]|]; (split; [intros N; exfalso; apply N; exact MM|intros _; exact E2]).
Qed.
Lemma gaussian_local sp E ex exq nq d par : sorts_pairs sp -> sqrt_nonneg E -> on_numbers1 ex exq -> positive exq -> 0 < d_e d -> (forall i j, 2 <= zlen (par i j)) ->
  local_step d (fun _ => True) (fun i j vs ws => (present vs = [] -> ws = vs) /\ (present vs <> [] -> outcome (gaussian_law exq nq (par i j) (qmean (present vs)) (ext_sqrt E (qvar (present vs)))) vs ws))
    (fun f c => let '(i, j) := c in gaussian_point sp E ex nq d 0 (par i j) f i j).
Proof.
  intros HS HE HX HP He HL f i j vs H Hi Hj Ev Lv _. destruct (ens_ok d f i j H Hi Hj He) as (vs' & Ev' & _ & Gv). assert (vs' = vs) by congruence. subst vs'. clear Ev'.
  unfold gaussian_point, gaussian_sums. unfold fz at 1 2. rewrite qz_0. rewrite (gauss_sums_fold f _ vs) by (apply (point_values d); auto). cbn [bind]. rewrite !Qcplus_0_l, Z.add_0_l.
  destruct (list_eq_dec Qc_eq_dec (present vs) []) as [N|N].
  - rewrite N. change (0 <? zlen (@nil Qc)) with false. cbn iota. destruct (keep_ok d f i j vs H He Hi Hj Ev Lv) as (g & Eg & Sg & Gg & Og). exists g, vs. do 5 (split; [auto|]). split; [auto|congruence].
  - assert (PL : 0 < zlen (present vs)) by (destruct (present vs); [congruence|rewrite zlen_cons; pose proof (zlen_nonneg l); lia]). destruct (Z.ltb_spec 0 (zlen (present vs))); [|lia].
    unfold fz. rewrite !vdiv_Fin by (apply qz_ne; lia). unfold vsub. cbn [vmul vneg vadd]. rewrite <- (zlen_qlen (present vs)). fold (qmean (present vs)).
    assert (SQ : (qsum (map (fun x => x * x) (present vs)) / qlen (present vs) + - (qmean (present vs) * qmean (present vs)) = qvar (present vs))%Qc).
    { rewrite <- (sq_mean_var (present vs) N). unfold qmean at 3. unfold qlen. rewrite zlen_map. reflexivity. }
    rewrite SQ. pose proof (qvar_nonneg (present vs)) as V. cbn [vsqrt]. destruct (qltb_spec (qvar (present vs)) 0) as [L|L]; [exfalso; revert L V; clear; intros; qlra|].
    destruct (replace_ok sp d _ (gaussian_law exq nq (par i j) (qmean (present vs)) (ext_sqrt E (qvar (present vs)))) f i j vs HS H He Hi Hj (gaussian_gives E ex exq nq (par i j) (d_e d) _ _ HX HP (HL i j) HE (HE _ V)) Ev Lv)
      as (g & ws & Eg & Sg & Lw & Gg & Og & HO).
    exists g, ws. do 5 (split; [auto|]). split; [contradiction|auto].
Qed.
Lemma c196_gaussian sp E ex exq nq pars d fs : shaped d fs -> 0 < d_e d -> sorts_pairs sp -> sqrt_nonneg E -> on_numbers1 ex exq -> positive exq -> (forall t y x, 2 <= zlen (pars t y x)) ->
  exists out, gaussian_calibrator sp E ex nq 0 pars d fs = Ok out /\ shaped d out /\
  forall t y x, 0 <= t < d_t d -> 0 <= y < d_y d -> 0 <= x < d_x d -> forall vs ws, members d fs t y x vs -> members d out t y x ws ->
    (present vs = [] -> ws = vs) /\ (present vs <> [] -> outcome (gaussian_law exq nq (pars t y x) (qmean (present vs)) (ext_sqrt E (qvar (present vs)))) vs ws).
Proof.
  intros H He HS HE HX HP HL. unfold gaussian_calibrator. change (0 <? 0) with false. cbn iota.
  apply (points_calibrator d fs (fun _ => True) (fun t y x vs ws => (present vs = [] -> ws = vs) /\ (present vs <> [] -> outcome (gaussian_law exq nq (pars t y x) (qmean (present vs)) (ext_sqrt E (qvar (present vs)))) vs ws))); auto.
  intros t Ht. apply gaussian_local; auto.
Qed.
