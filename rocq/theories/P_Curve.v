From Verif Require Import Base ListLib M_Stat M_Interp M_Curve S_Stat S_Interp S_Curve P_Stat P_Interp P_NeighAll P_Search.

Lemma increasing_sorted X : increasing X -> qsorted X.
Proof. intros H. induction H as [|x l S IH F]; constructor; [exact IH|]. eapply Forall_impl; [|exact F]. intros y Hy. apply Qclt_le_weak. exact Hy. Qed.
Lemma increasing_lt X i j : increasing X -> 0 <= i < j -> j < zlen X -> (qnth X i < qnth X j)%Qc.
Proof.
  intros H. revert i j. induction H as [|x l S IH F]; intros i j Hi Hj; [change (zlen (@nil Qc)) with 0 in Hj; lia|]. rewrite zlen_cons in Hj.
  rewrite (qnth_consS x l j) by lia. destruct (Z.eq_dec i 0) as [->|N].
  - rewrite qnth_cons0. rewrite Forall_forall in F. apply F. apply qnth_In. lia.
  - rewrite (qnth_consS x l i) by lia. apply IH; lia.
Qed.
Lemma zlen_pos' {A} (l : list A) : l <> [] -> 0 < zlen l.
Proof. destruct l; [congruence|]. rewrite zlen_cons. pose proof (zlen_nonneg l). lia. Qed.
Lemma vmul_Fin a b : vmul (Fin a) (Fin b) = Fin (a * b)%Qc. Proof. reflexivity. Qed.
Lemma vadd_Fin a b : vadd (Fin a) (Fin b) = Fin (a + b)%Qc. Proof. reflexivity. Qed.
Lemma znth_mapFin X i : 0 <= i < zlen X -> znth (map Fin X) i = Ok (Fin (qnth X i)).
Proof. intros H. rewrite znth_map, qnth_znth by exact H. reflexivity. Qed.
Lemma qdiff_ne a b : (a < b)%Qc -> (b - a)%Qc <> 0%Qc.
Proof. intros H K. qlra. Qed.

Lemma curve_slope_ok pol below X Y : X <> [] -> zlen X = zlen Y -> pol <> Unchanged -> slope_defined pol X below ->
  exists s, curve_slope pol below (zlen X) (map Fin Y) (map Fin X) = Ok (Fin s) /\ end_slope pol X Y below s.
Proof.
  intros NE HL NU HD. pose proof (zlen_pos' X NE) as HN. unfold curve_slope. destruct pol; try congruence; try contradiction.
  - exists 1%Qc. split; reflexivity.
  - cbn [orb]. unfold end_slope. destruct (Z.eqb_spec (zlen X) 1) as [E1|N1].
    + replace (zlen X <=? 1) with true by lia. exists 1%Qc. split; reflexivity.
    + replace (zlen X <=? 1) with false by lia. cbn in HD. destruct HD as [K|HD]; [contradiction|].
      rewrite !znth_mapFin by lia. cbn [bind]. rewrite !vsub_Fin, vdiv_Fin by (apply qdiff_ne; exact HD). eexists. split; reflexivity.
  - cbn [orb]. unfold end_slope. destruct (Z.eqb_spec (zlen X) 1) as [E1|N1].
    + replace (zlen X <=? 1) with true by lia. exists 1%Qc. split; reflexivity.
    + replace (zlen X <=? 1) with false by lia. cbn in HD. destruct HD as [K|HD]; [contradiction|].
      destruct below; rewrite !znth_mapFin by lia; cbn [bind]; rewrite !vsub_Fin, vdiv_Fin by (apply qdiff_ne; exact HD); eexists; split; reflexivity.
  - exists 0%Qc. split; reflexivity.
Qed.
Lemma apply_curve_ok X Y pb pa x : qsorted X -> X <> [] -> zlen X = zlen Y ->
  ((x < qnth X 0)%Qc -> slope_defined pb X true) -> ((qnth X (zlen X - 1) < x)%Qc -> slope_defined pa X false) ->
  exists r, apply_curve (Fin x) (map Fin Y) (map Fin X) pb pa = Ok (Fin r) /\ curve_value X Y pb pa x r.
Proof.
  intros SX NE HL DB DA. pose proof (zlen_pos' X NE) as HN. unfold apply_curve. rewrite !zlen_map. replace (zlen Y =? zlen X) with true by lia. cbn [negb].
  replace (zlen Y =? 0) with false by lia. rewrite !znth_mapFin by lia. cbn [bind]. rewrite !vleb_Fin.
  assert (ENDS : (qnth X 0 <= qnth X (zlen X - 1))%Qc) by (apply qnth_mono; [exact SX|lia|lia]).
  destruct (qleb_spec (qnth X 0) x) as [L0|L0]; [destruct (qleb_spec x (qnth X (zlen X - 1))) as [L1|L1]|]; cbn [andb].
  - destruct (interpolate_spec x X Y SX NE HL) as (a & b & r & HB & EI & HR). exists r. split; [exact EI|].
    split; [intros _; eauto|]. split; [intros; exfalso; qlra|]. split; [intros; exfalso; qlra|]. split; intros; exfalso; qlra.
  - apply Qcnot_le_lt in L1. destruct (qleb_spec x (qnth X 0)) as [L2|L2]; [exfalso; qlra|].
    assert (CV : forall r, (pa = Unchanged -> r = x) -> (pa <> Unchanged -> exists s, end_slope pa X Y false s /\ r = (qnth Y (zlen X - 1) + s * (x - qnth X (zlen X - 1)))%Qc) -> curve_value X Y pb pa x r).
    { intros r H1 H2. split; [intros [_ K]; exfalso; qlra|]. split; [intros K; exfalso; qlra|]. split; [intros K; exfalso; qlra|]. split; intros _; assumption. }
    specialize (DA L1).
    assert (DU : pa = Unchanged \/ pa <> Unchanged) by (destruct pa; auto; right; discriminate). destruct DU as [DU|DU].
    + exists x. rewrite DU. split; [reflexivity|]. rewrite <- DU. apply CV; [reflexivity|intros; contradiction].
    + destruct (curve_slope_ok pa false X Y NE HL DU DA) as (s & ES & HS). exists (qnth Y (zlen X - 1) + s * (x - qnth X (zlen X - 1)))%Qc. rewrite ES. cbn [bind]. rewrite vsub_Fin, vmul_Fin, vadd_Fin.
      split; [destruct pa; congruence|]. apply CV; [intros; contradiction|eauto].
  - apply Qcnot_le_lt in L0. destruct (qleb_spec x (qnth X 0)) as [L2|L2]; [|exfalso; apply L2, Qclt_le_weak, L0].
    assert (CV : forall r, (pb = Unchanged -> r = x) -> (pb <> Unchanged -> exists s, end_slope pb X Y true s /\ r = (qnth Y 0 + s * (x - qnth X 0))%Qc) -> curve_value X Y pb pa x r).
    { intros r H1 H2. split; [intros [K _]; exfalso; qlra|]. split; [intros _; assumption|]. split; [intros _; assumption|]. split; intros K; exfalso; qlra. }
    specialize (DB L0).
    assert (DU : pb = Unchanged \/ pb <> Unchanged) by (destruct pb; auto; right; discriminate). destruct DU as [DU|DU].
    + exists x. rewrite DU. split; [reflexivity|]. rewrite <- DU. apply CV; [reflexivity|intros; contradiction].
    + destruct (curve_slope_ok pb true X Y NE HL DU DB) as (s & ES & HS). exists (qnth Y 0 + s * (x - qnth X 0))%Qc. rewrite ES. cbn [bind]. rewrite vsub_Fin, vmul_Fin, vadd_Fin.
      split; [destruct pb; congruence|]. apply CV; [intros; contradiction|eauto].
Qed.
Lemma vadd_invalid q v : is_valid v = false -> is_valid (vadd (Fin q) v) = false.
Proof. destruct v; cbn; congruence. Qed.
Lemma vmul_invalid q v : is_valid v = false -> is_valid (vmul (Fin q) v) = false.
Proof. destruct v; cbn; try congruence; intros _; destruct (qeqb q 0); try reflexivity; [destruct (qltb q 0)|destruct (qltb 0 q)]; reflexivity. Qed.
Lemma vsub_invalid v q : is_valid v = false -> is_valid (vsub v (Fin q)) = false.
Proof. destruct v; cbn; congruence. Qed.
Lemma apply_curve_missing X Y pb pa v : X <> [] -> zlen X = zlen Y -> is_valid v = false -> slope_defined pb X true -> slope_defined pa X false ->
  exists r, apply_curve v (map Fin Y) (map Fin X) pb pa = Ok r /\ is_valid r = false.
Proof.
  intros NE HL NV DB DA. pose proof (zlen_pos' X NE) as HN. unfold apply_curve. rewrite !zlen_map. replace (zlen Y =? zlen X) with true by lia. cbn [negb].
  replace (zlen Y =? 0) with false by lia. rewrite !znth_mapFin by lia. cbn [bind].
  assert (OUT : vleb (Fin (qnth X 0)) v && vleb v (Fin (qnth X (zlen X - 1))) = false) by (destruct v; try discriminate NV; reflexivity). rewrite OUT.
  set (below := vleb v (Fin (qnth X 0))). set (pol := if below then pb else pa).
  assert (DP : slope_defined pol X below) by (unfold pol; destruct below; assumption).
  assert (DU : pol = Unchanged \/ pol <> Unchanged) by (destruct pol; auto; right; discriminate). destruct DU as [DU|DU].
  - exists v. rewrite DU. auto.
  - destruct (curve_slope_ok pol below X Y NE HL DU DP) as (s & ES & HS). rewrite ES. cbn [bind].
    eexists. split; [destruct pol; try reflexivity; congruence|].
    destruct below; apply vadd_invalid, vmul_invalid, vsub_invalid, NV.
Qed.
Lemma apply_curve_nan X Y pb pa : X <> [] -> zlen X = zlen Y -> slope_defined pb X true -> slope_defined pa X false ->
  apply_curve MV (map Fin Y) (map Fin X) pb pa = Ok MV.
Proof.
  intros NE HL DB DA. pose proof (zlen_pos' X NE) as HN. unfold apply_curve. rewrite !zlen_map. replace (zlen Y =? zlen X) with true by lia. cbn [negb].
  replace (zlen Y =? 0) with false by lia. rewrite !znth_mapFin by lia. cbn [bind]. change (vleb (Fin (qnth X 0)) MV && vleb MV (Fin (qnth X (zlen X - 1)))) with false.
  change (vleb MV (Fin (qnth X 0))) with false. cbv iota zeta.
  assert (DU : pa = Unchanged \/ pa <> Unchanged) by (destruct pa; auto; right; discriminate). destruct DU as [->|DU]; [reflexivity|].
  destruct (curve_slope_ok pa false X Y NE HL DU DA) as (s & ES & HS). rewrite ES. cbn [bind]. destruct pa; reflexivity || congruence.
Qed.
Lemma apply_curve_errors v ref fcst pb pa : zlen ref <> zlen fcst \/ (ref = [] /\ fcst = []) -> apply_curve v ref fcst pb pa = Throw InvalidArgument.
Proof.
  intros [H|[-> ->]]; [|reflexivity]. unfold apply_curve. destruct (Z.eqb_spec (zlen ref) (zlen fcst)); [contradiction|reflexivity].
Qed.
Lemma c27_all X Y pb pa : qsorted X -> X <> [] -> zlen X = zlen Y ->
  (forall x, ((x < qnth X 0)%Qc -> slope_defined pb X true) -> ((qnth X (zlen X - 1) < x)%Qc -> slope_defined pa X false) ->
     exists r, apply_curve (Fin x) (map Fin Y) (map Fin X) pb pa = Ok (Fin r) /\ curve_value X Y pb pa x r) /\
  (slope_defined pb X true -> slope_defined pa X false -> apply_curve MV (map Fin Y) (map Fin X) pb pa = Ok MV) /\
  (slope_defined pb X true -> slope_defined pa X false -> forall v, is_valid v = false ->
     exists r, apply_curve v (map Fin Y) (map Fin X) pb pa = Ok r /\ is_valid r = false) /\
  (forall v ref fcst, zlen ref <> zlen fcst \/ (ref = [] /\ fcst = []) -> apply_curve v ref fcst pb pa = Throw InvalidArgument).
Proof.
  intros SX NE HL. split; [intros; apply apply_curve_ok; assumption|]. split; [intros; apply apply_curve_nan; assumption|].
  split; [intros; apply apply_curve_missing; assumption|]. intros. apply apply_curve_errors. assumption.
Qed.

(** ** C28 *)
Lemma slope_ordinary p X below : increasing X -> X <> [] -> ordinary p -> slope_defined p X below.
Proof.
  intros IX NE HO. pose proof (zlen_pos' X NE) as HN. destruct HO as [->|[->|[->| ->]]]; cbn; auto.
  - destruct (Z.eq_dec (zlen X) 1); [auto|right]. apply increasing_lt; [exact IX|lia|lia].
  - destruct (Z.eq_dec (zlen X) 1); [auto|right]. destruct below; apply increasing_lt; try exact IX; lia.
Qed.
Lemma slope_nonneg p X Y below s : increasing X -> qsorted Y -> X <> [] -> zlen X = zlen Y -> ordinary p -> end_slope p X Y below s -> (0 <= s)%Qc.
Proof.
  intros IX SY NE HL HO HS. pose proof (zlen_pos' X NE) as HN.
  assert (D : forall i j, 0 <= i < j -> j < zlen X -> (0 <= (qnth Y j - qnth Y i) / (qnth X j - qnth X i))%Qc).
  { intros i j Hi Hj. apply qdiv_nonneg.
    - pose proof (qnth_mono Y i j SY ltac:(lia) ltac:(lia)). qlra.
    - pose proof (increasing_lt X i j IX Hi Hj). qlra. }
  destruct HO as [->|[->|[->| ->]]]; cbn in HS.
  - subst s. qlra.
  - destruct (Z.eqb_spec (zlen X) 1); subst s; [qlra|]. apply D; lia.
  - destruct (Z.eqb_spec (zlen X) 1); [subst s; qlra|]. destruct below; subst s; apply D; lia.
  - subst s. apply Qcle_refl.
Qed.
Lemma end_slope_unique p X Y below s t : end_slope p X Y below s -> end_slope p X Y below t -> s = t.
Proof. unfold end_slope. destruct p; try tauto; try congruence; destruct (zlen X =? 1); try congruence; destruct below; congruence. Qed.
Lemma curve_value_mono X Y pb pa x x' r r' : increasing X -> qsorted Y -> X <> [] -> zlen X = zlen Y -> ordinary pb -> ordinary pa -> (x <= x')%Qc ->
  curve_value X Y pb pa x r -> curve_value X Y pb pa x' r' -> (r <= r')%Qc.
Proof.
  intros IX SY NE HL OB OA Hx (I1 & _ & B1 & _ & A1) (I2 & _ & B2 & _ & A2). pose proof (zlen_pos' X NE) as HN.
  assert (NB : pb <> Unchanged) by (destruct OB as [->|[->|[->| ->]]]; discriminate).
  assert (NA : pa <> Unchanged) by (destruct OA as [->|[->|[->| ->]]]; discriminate).
  pose proof (increasing_sorted X IX) as SX.
  assert (MID : forall x r, (exists a b, bracket X x a b /\ interp_rule X Y x a b r) -> (qnth Y 0 <= r <= qnth Y (zlen X - 1))%Qc).
  { intros u w (a & b & HB & HI). eapply interp_rule_between; [exact HB|exact HI|exact HN|]. intros j Hj _ _. split; apply qnth_mono; auto; lia. }
  assert (YY : (qnth Y 0 <= qnth Y (zlen X - 1))%Qc) by (apply qnth_mono; auto; lia).
  assert (XX : (qnth X 0 <= qnth X (zlen X - 1))%Qc) by (apply qnth_mono; auto; lia).
  assert (BEL : forall x r, (x < qnth X 0)%Qc -> (exists s, end_slope pb X Y true s /\ r = (qnth Y 0 + s * (x - qnth X 0))%Qc) -> (r <= qnth Y 0)%Qc).
  { intros u w Hu (s & HS & ->). pose proof (slope_nonneg _ _ _ _ _ IX SY NE HL OB HS). assert (0 <= s * (qnth X 0 - u))%Qc by (assert (0 <= qnth X 0 - u)%Qc by qlra; qnra). qlra. }
  assert (ABV : forall x r, (qnth X (zlen X - 1) < x)%Qc -> (exists s, end_slope pa X Y false s /\ r = (qnth Y (zlen X - 1) + s * (x - qnth X (zlen X - 1)))%Qc) -> (qnth Y (zlen X - 1) <= r)%Qc).
  { intros u w Hu (s & HS & ->). pose proof (slope_nonneg _ _ _ _ _ IX SY NE HL OA HS). assert (0 <= s * (u - qnth X (zlen X - 1)))%Qc by (assert (0 <= u - qnth X (zlen X - 1))%Qc by qlra; qnra). qlra. }
  destruct (Qclt_le_dec x (qnth X 0)) as [X1|X1].
  - destruct (B1 X1 NB) as (s & HS & ->). pose proof (slope_nonneg _ _ _ _ _ IX SY NE HL OB HS) as PS.
    assert (R1 : (qnth Y 0 + s * (x - qnth X 0) <= qnth Y 0)%Qc) by (apply (BEL x); eauto).
    destruct (Qclt_le_dec x' (qnth X 0)) as [X2|X2].
    + destruct (B2 X2 NB) as (s' & HS' & ->). rewrite (end_slope_unique _ _ _ _ _ _ HS' HS). assert (0 <= s * (x' - x))%Qc by (assert (0 <= x' - x)%Qc by qlra; qnra). qlra.
    + destruct (Qclt_le_dec (qnth X (zlen X - 1)) x') as [X3|X3].
      * pose proof (ABV x' r' X3 (A2 X3 NA)). qlra.
      * destruct (MID x' r' (I2 (conj X2 X3))). qlra.
  - destruct (Qclt_le_dec (qnth X (zlen X - 1)) x) as [X2|X2].
    + destruct (A1 X2 NA) as (s & HS & ->). assert (X3 : (qnth X (zlen X - 1) < x')%Qc) by qlra. destruct (A2 X3 NA) as (s' & HS' & ->).
      rewrite (end_slope_unique _ _ _ _ _ _ HS' HS). pose proof (slope_nonneg _ _ _ _ _ IX SY NE HL OA HS). assert (0 <= s * (x' - x))%Qc by (assert (0 <= x' - x)%Qc by qlra; qnra). qlra.
    + destruct (I1 (conj X1 X2)) as (a & b & HB & HI).
      destruct (Qclt_le_dec (qnth X (zlen X - 1)) x') as [X3|X3].
      * pose proof (ABV x' r' X3 (A2 X3 NA)). destruct (MID x r ltac:(eauto)). qlra.
      * assert (X4 : (qnth X 0 <= x')%Qc) by qlra. destruct (I2 (conj X4 X3)) as (a' & b' & HB' & HI').
        eapply (interp_rule_mono X Y x x'); eauto.
Qed.
Lemma c28_all X Y pb pa x x' : increasing X -> qsorted Y -> X <> [] -> zlen X = zlen Y -> ordinary pb -> ordinary pa -> (x <= x')%Qc ->
  exists r r', apply_curve (Fin x) (map Fin Y) (map Fin X) pb pa = Ok (Fin r) /\ apply_curve (Fin x') (map Fin Y) (map Fin X) pb pa = Ok (Fin r') /\ (r <= r')%Qc.
Proof.
  intros IX SY NE HL OB OA Hx.
  destruct (apply_curve_ok X Y pb pa x (increasing_sorted X IX) NE HL) as (r & ER & CR); [intros _; apply slope_ordinary; assumption|intros _; apply slope_ordinary; assumption|].
  destruct (apply_curve_ok X Y pb pa x' (increasing_sorted X IX) NE HL) as (r' & ER' & CR'); [intros _; apply slope_ordinary; assumption|intros _; apply slope_ordinary; assumption|].
  exists r, r'. split; [exact ER|]. split; [exact ER'|]. eapply (curve_value_mono X Y pb pa x x'); eauto.
Qed.
