From Verif Require Import Base ListLib QcTac M_Stat S_Stat P_Stat P_Even M_COpt M_CUtil S_CUtil P_CUtil M_CCal S_CCal P_CCal M_CCal2 M_CGradient M_CDist S_CDist P_CDist P_CGauss P_CBct P_CZaga P_CDistEx M_CLik S_CLik.
Local Open Scope Z_scope.

Lemma at_least_pos p : (0 <= p)%Qc -> (0 < at_least p)%Qc.
Proof. intros H. unfold at_least. destruct (Qc_eq_dec p 0) as [E|N]; [reflexivity|]. apply Qcnot_le_lt. intros K. apply N, Qcle_antisym; assumption. Qed.
Lemma log_density_ok lg lgq p : on_positive lg lgq -> (0 <= p)%Qc -> log_density lg (Fin p) = Ok (Fin (lgq (at_least p))).
Proof.
  intros HL H. pose proof (at_least_pos p H) as A. unfold log_density. unfold fz. rewrite qz_0, veqb_Fin, (cvalid_nonneg p H). cbn [negb]. rewrite orb_false_r. unfold at_least in *. destruct (Qc_eq_dec p 0) as [->|N].
  - destruct (qeqb_spec 0 0); [|congruence]. unfold assert_, fq. rewrite (vltb_true 0 (Q2Qc (1 # 100000)) eq_refl). cbn [bind]. rewrite (HL _ A). reflexivity.
  - destruct (qeqb_spec p 0); [congruence|]. unfold assert_. rewrite (vltb_true 0 p A). cbn [bind]. rewrite (HL _ A). reflexivity.
Qed.
Lemma gaussian_pdf_ok ex nd exq ndq par a b r o m s : on_numbers1 ex exq -> positive exq -> on_numbers3 nd ndq -> known par = Some (a :: b :: r) -> (0 < m)%Qc -> gaussian_pdf ex nd (Fin m) (Fin s) par (Fin o) = Ok (Fin (ndq m (exq (a + b * s)%Qc) o)).
Proof.
  intros HX HP HN HK Hm. destruct (known_some par _ HK) as [EK _]. pose proof (HP (a + b * s)%Qc) as SP. unfold gaussian_pdf. rewrite EK. change (par_get (map Fin (a :: b :: r)) 0) with (Ok (Fin a)). change (par_get (map Fin (a :: b :: r)) 1) with (Ok (Fin b)). cbn [bind]. cbv zeta.
  rewrite !vmul_F, !vadd_F, !HX. rewrite !vleb_pos by assumption. cbn [orb]. rewrite !cvalid_nonneg by qlra. cbn [negb orb]. rewrite HN. reflexivity.
Qed.
Lemma vneg_F q : vneg (Fin q) = Fin (- q)%Qc. Proof. reflexivity. Qed.
Lemma c283 ex lg nd exq lgq ndq par a b r (data : list (Qc * Qc * Qc)) : on_numbers1 ex exq -> positive exq -> on_positive lg lgq -> on_numbers3 nd ndq -> never_negative ndq -> known par = Some (a :: b :: r) -> (forall o m s, In (o, m, s) data -> (0 < m)%Qc) ->
  gaussian_objective ex lg nd (map triple data) par = Ok (Fin (- total_of (map (normal_term exq lgq ndq a b) data))%Qc).
Proof.
  intros HX HP HL HN H0 HK HD. unfold gaussian_objective.
  assert (G : forall t, foldM (fun total d => let '(obs, mean, spread) := d in pdf <- gaussian_pdf ex nd mean spread par obs ;; l <- log_density lg pdf ;; Ok (vadd total l)) (Fin t) (map triple data) = Ok (Fin (t + total_of (map (normal_term exq lgq ndq a b) data))%Qc)).
  { induction data as [|[[o m] s] data IH]; intros t; cbn [map foldM total_of]; [f_equal; f_equal; ring|]. cbn [triple]. rewrite (gaussian_pdf_ok ex nd exq ndq par a b r o m s HX HP HN HK (HD o m s (or_introl eq_refl))). cbn [bind].
    rewrite (log_density_ok lg lgq _ HL (H0 _ _ _)). cbn [bind]. rewrite vadd_F, IH by (intros o' m' s' I; apply (HD o' m' s'); right; exact I). cbn [normal_term]. f_equal; f_equal; ring. }
  unfold fz. rewrite qz_0, G. cbn [bind]. rewrite vneg_F. f_equal; f_equal; ring.
Qed.
(** below 0 the observations and parameters do not matter *)
Lemma c283_cold : exists m, forall ex lg nd par par' o o' s, 2 <= zlen par -> 2 <= zlen par' -> gaussian_objective ex lg nd [(o, Fin m, s)] par = gaussian_objective ex lg nd [(o', Fin m, s)] par'.
Proof.
  exists (qz (-5)). intros ex lg nd par par' o o' s HA HB. unfold gaussian_objective. cbn [foldM].
  assert (G : forall p x, 2 <= zlen p -> gaussian_pdf ex nd (Fin (qz (-5))) s p x = Ok CMV). { intros p x HZ. unfold gaussian_pdf, par_get. destruct (znth_some p 0 ltac:(lia)) as [u ->]. destruct (znth_some p 1 ltac:(lia)) as [v ->]. cbn [bind]. reflexivity. }
  rewrite !G by assumption. reflexivity.
Qed.
Lemma c284 ex lg pw gd exq lgq pwq gdq par (data : list (Qc * Qc * Qc)) (law : Qc * Qc * Qc -> Qc * Qc * Qc) : on_numbers1 ex exq -> on_nonneg2 pw pwq -> positive exq -> on_positive lg lgq -> on_numbers3 gd gdq -> never_negative gdq -> 8 <= zlen par ->
  (forall o m fr, In (o, m, fr) data -> (0 <= m)%Qc /\ (0 <= fr <= 1)%Qc /\ zaga_parameters exq pwq par m fr = Some (law (o, m, fr))) ->
  zaga_objective ex lg pw gd (map triple data) par = Ok (Fin (- total_of (map (fun d => let '(P0, shape, scale) := law d in zaga_term lgq gdq P0 shape scale (fst (fst d))) data))%Qc).
Proof.
  intros HX HW HP HL HG H0 HZ HD. unfold zaga_objective. set (T := fun d => let '(P0, shape, scale) := law d in zaga_term lgq gdq P0 shape scale (fst (fst d))).
  match goal with |- context [foldM ?f _ _] => set (step := f) end.
  assert (G : forall t, foldM step (Fin t) (map triple data) = Ok (Fin (t + total_of (map T data))%Qc)).
  { induction data as [|[[o m] fr] data IH]; intros t; cbn [map foldM total_of]; [f_equal; f_equal; ring|]. destruct (HD o m fr (or_introl eq_refl)) as (Hm & Hf & EL).
    assert (S : step (Fin t) (triple (o, m, fr)) = Ok (Fin (t + T (o, m, fr))%Qc)).
    { unfold step, T. cbn [triple fst]. destruct (law (o, m, fr)) as [[P0 shape] scale]. destruct (zaga_parameters_range exq pwq par m fr P0 shape scale HP EL) as (R1 & R2 & R3).
      assert (V : par_valid par = true). { unfold zaga_parameters in EL. destruct (known par) as [l|] eqn:K; [|discriminate]. destruct (known_some par l K) as [E NM]. rewrite E. apply known_valid, NM. }
      destruct (zaga_p0_ok ex pw exq pwq HX HW HP m fr par Hm Hf HZ V) as (v & E & M). rewrite EL in M. destruct M as [-> EG]. unfold zaga_pdf. rewrite E, EG. cbn [bind]. unfold zaga_term. unfold fz. rewrite qz_0, qz_1, veqb_Fin.
      destruct (qeqb_spec o 0) as [Q|Q]; destruct (Qc_eq_dec o 0) as [Q'|Q']; try contradiction.
      - unfold assert_. rewrite vltb_true by apply R1. cbn [bind]. rewrite (HL P0 (proj1 R1)). reflexivity.
      - rewrite HG, vsub_F, vmul_F. rewrite (log_density_ok lg lgq); [cbn [bind]; rewrite vadd_F; reflexivity|exact HL|]. pose proof (H0 shape scale o) as Y. set (g := gdq shape scale o) in *. clearbody g. qnra. }
    rewrite S. cbn [bind]. rewrite IH by (intros o' m' s' I; apply (HD o' m' s'); right; exact I). f_equal; f_equal; ring. }
  unfold fz. rewrite qz_0, G. cbn [bind]. rewrite vneg_F. f_equal; f_equal; ring.
Qed.
(** a density for examples *)
Definition dens (a b x : Qc) : Qc := (1 / (1 + b * b + (x - a) * (x - a)))%Qc.
Lemma dens_nonneg : never_negative dens.
Proof. intros a b x. unfold dens. apply Qclt_le_weak, qdiv_pos; [reflexivity|]. assert (forall y : Qc, (0 <= y * y)%Qc) as SQ by (intros y; qnra). pose proof (SQ b). pose proof (SQ (x - a)%Qc). qlra. Qed.
Lemma lift3_ok f : on_numbers3 (lift3 f) f. Proof. intros x y z. reflexivity. Qed.
Lemma lift1_pos f : on_positive (lift1 f) f. Proof. intros x _. reflexivity. Qed.
