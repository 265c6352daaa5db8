(** Proofs about the client's qq calibrator. *)
From Coq Require Import Permutation Qround.
From Verif Require Import Base QcTac ListLib M_Stat S_Stat P_Stat P_Quant P_Even S_Interp P_Interp M_Curve S_Curve P_Curve.
From Verif Require P_NScore.
From Verif Require Import M_COpt M_CUtil S_CUtil P_CUtil M_CCal S_CCal P_CCal M_CCal2 S_CCal2 P_CCal2 M_CQq S_CQq.
Local Open Scope Z_scope.

Lemma qq_slope_eq p below X Y : ordinary p -> (p = Zero -> 2 <= zlen X) -> zlen X = zlen Y ->
  qq_slope p below (map Fin Y) (map Fin X) = curve_slope p below (zlen X) (map Fin Y) (map Fin X).
Proof.
  intros HO HZ HL. unfold qq_slope, curve_slope. rewrite !zlen_map, <- HL. destruct HO as [->|[->|[->| ->]]]; cbn [orb]; auto.
  replace (zlen X <=? 1) with false; [reflexivity|]. specialize (HZ eq_refl). lia.
Qed.
Lemma qq_slope_total p below X Y : X <> [] -> zlen X = zlen Y -> exists s, qq_slope p below (map Fin Y) (map Fin X) = Ok s.
Proof.
  intros NE HL. pose proof (zlen_pos' X NE). unfold qq_slope. rewrite !zlen_map, <- HL. destruct p; cbn [orb]; eauto; destruct (Z.leb_spec (zlen X) 1); eauto; try (destruct below);
    rewrite !znth_mapFin by lia; cbn [bind]; eauto.
Qed.
Lemma qq_value_ok p X Y x : ordinary p -> qsorted X -> X <> [] -> zlen X = zlen Y -> no_missing X ->
  exists w, qq_value p (map Fin Y) (map Fin X) (Fin x) = Ok w /\
    (qq_defined p X x -> (p = Zero -> 2 <= zlen X) -> exists r, w = Fin r /\ qq_rule p X Y x r).
Proof.
  intros HO SX NE HL NM. pose proof (zlen_pos' X NE) as HN. unfold qq_value. rewrite !zlen_map, !znth_mapFin by lia. cbn [bind]. rewrite vleb_Fin. change (vltb (Fin ?u) (Fin ?v)) with (qltb u v).
  assert (DU : p <> Unchanged) by (destruct HO as [->|[->|[->| ->]]]; discriminate).
  destruct (qltb_spec (qnth X 0) x) as [L0|L0]; [destruct (qltb_spec x (qnth X (zlen X - 1))) as [L1|L1]|]; cbn [andb].
  - destruct (c145_value x X Y SX NE HL NM) as (a & b & r & B & E & R). exists (Fin r). split; [exact E|]. intros _ _. exists r. split; [reflexivity|].
    split; [intros _; eauto|]. split; intros; exfalso; qlra.
  - destruct (qleb_spec x (qnth X 0)) as [L2|L2]; [exfalso; qlra|]. destruct (qq_slope_total p false X Y NE HL) as (s & Es). rewrite Es. cbn [bind]. eexists. split; [reflexivity|].
    intros (_ & D) HZ. apply Qcnot_lt_le in L1. specialize (D L0 L1). rewrite (qq_slope_eq p false X Y HO HZ HL) in Es. destruct (curve_slope_ok p false X Y NE HL DU D) as (s' & ES & HS).
    rewrite Es in ES. injection ES as ->. rewrite <- HL. eexists. split; [reflexivity|]. split; [intros; exfalso; qlra|]. split; [intros; exfalso; qlra|]. intros _ _. exists s'. split; [exact HS|]. ring.
  - destruct (qleb_spec x (qnth X 0)) as [L2|L2]; [|exfalso; apply L2; apply Qcnot_lt_le, L0]. destruct (qq_slope_total p true X Y NE HL) as (s & Es). rewrite Es. cbn [bind]. eexists. split; [reflexivity|].
    intros (D & _) HZ. specialize (D L2). rewrite (qq_slope_eq p true X Y HO HZ HL) in Es. destruct (curve_slope_ok p true X Y NE HL DU D) as (s' & ES & HS).
    rewrite Es in ES. injection ES as ->. eexists. split; [reflexivity|]. split; [intros; exfalso; qlra|]. split; [|intros; exfalso; qlra]. intros _. exists s'. split; [exact HS|]. ring.
Qed.

(** the parameters of a point *)
Lemma pair_values_len l : zlen (pair_values l) = 2 * zlen l.
Proof. induction l as [|p l IH]; [reflexivity|]. unfold pair_values in *. cbn [flat_map app]. rewrite !zlen_cons, IH. lia. Qed.
Lemma pair_values_get l : forall i, 0 <= i < zlen l ->
  znth (pair_values l) (2 * i) = Ok (Fin (qnth (map fst l) i)) /\ znth (pair_values l) (2 * i + 1) = Ok (Fin (qnth (map snd l) i)).
Proof.
  induction l as [|p l IH]; intros i Hi; [change (zlen []) with 0 in Hi; lia|]. rewrite zlen_cons in Hi. unfold pair_values in *. cbn [flat_map app map].
  destruct (Z.eq_dec i 0) as [->|N]; [split; reflexivity|]. rewrite !qnth_consS by lia. destruct (IH (i - 1) ltac:(lia)) as (<- & <-).
  split; (rewrite !znth_consS by lia; f_equal; lia).
Qed.
Lemma pair_values_inj l m : pair_values l = pair_values m -> l = m.
Proof.
  revert m. induction l as [|[a b] l IH]; intros [|[c e] m] H; try discriminate; auto. unfold pair_values in *. cbn [flat_map app fst snd] in H. injection H as -> -> H. f_equal. apply IH, H.
Qed.
Lemma map_qnth_zrange l : map (qnth l) (zrange 0 (zlen l)) = l.
Proof.
  induction l as [|c l IH]; [reflexivity|]. pose proof (zlen_nonneg l) as H. rewrite zlen_cons, zrange_cons by lia. cbn [map]. rewrite qnth_cons0. f_equal.
  replace (zrange (0 + 1) (zlen l + 1)) with (map (fun i => i + 1) (zrange 0 (zlen l))).
  - rewrite map_map. rewrite <- IH at 2. apply map_ext_in. intros i Hi. apply in_zrange in Hi. rewrite qnth_consS by lia. f_equal. lia.
  - unfold zrange. rewrite map_map. replace (zlen l + 1 - (0 + 1)) with (zlen l - 0) by lia. apply map_ext. intros. lia.
Qed.
Lemma mapM_qnth (g : Z -> res val) (l : list Qc) : (forall i, 0 <= i < zlen l -> g i = Ok (Fin (qnth l i))) -> mapM g (zrange 0 (zlen l)) = Ok (map Fin l).
Proof.
  intros H. transitivity (Ok (map (fun i => Fin (qnth l i)) (zrange 0 (zlen l)))).
  - apply mapM_ok. intros i Hi. apply in_zrange in Hi. apply H. lia.
  - f_equal. rewrite <- (map_map (qnth l) Fin). f_equal. apply map_qnth_zrange.
Qed.
Lemma separate_ok eO eF l : zlen eO = zlen eF -> exists X Y, qq_separate (map Fin eO) (map Fin eF) (pair_values l) = Ok (map Fin Y, map Fin X) /\ qq_curve eO eF l X Y /\ zlen X = zlen Y /\ zlen X = zlen l + zlen eO.
Proof.
  intros HE. unfold qq_separate. rewrite pair_values_len. rewrite (Z.mul_comm 2), Z.quot_mul by lia.
  assert (E1 : mapM (fun i => par_get (pair_values l) (2 * i)) (zrange 0 (zlen l)) = Ok (map Fin (map fst l))).
  { replace (zlen l) with (zlen (map fst l)) by apply zlen_map. apply mapM_qnth. intros i Hi. rewrite zlen_map in Hi. unfold par_get. destruct (pair_values_get l i Hi) as (-> & _). reflexivity. }
  assert (E2 : mapM (fun i => par_get (pair_values l) (2 * i + 1)) (zrange 0 (zlen l)) = Ok (map Fin (map snd l))).
  { replace (zlen l) with (zlen (map snd l)) by apply zlen_map. apply mapM_qnth. intros i Hi. rewrite zlen_map in Hi. unfold par_get. destruct (pair_values_get l i Hi) as (_ & ->). reflexivity. }
  rewrite E1, E2. cbn [bind]. rewrite zlen_map. destruct eO as [|o eO].
  - change (0 <? zlen []) with false. cbn iota. exists (map snd l), (map fst l). split; [reflexivity|]. split; [split; reflexivity|]. rewrite !zlen_map. change (zlen []) with 0. lia.
  - rewrite zlen_cons. pose proof (zlen_nonneg eO). replace (0 <? zlen eO + 1) with true by lia. rewrite <- !map_app, !std_sort_map. cbn [bind].
    exists (qsort (map snd l ++ eF)), (qsort (map fst l ++ o :: eO)). split; [reflexivity|]. assert (LX : forall m, zlen (qsort m) = zlen m) by (intros; unfold zlen; f_equal; apply Permutation_length, perm_qsort).
    split; [cbn; split; [apply sorted_qsort|]; split; [apply perm_qsort|]; split; [apply sorted_qsort|apply perm_qsort]|]. rewrite !LX, !zlen_app, !zlen_map, <- HE, zlen_cons. lia.
Qed.
Lemma qq_curve_fun eO eF l X Y X' Y' : qq_curve eO eF l X Y -> qq_curve eO eF l X' Y' -> X = X' /\ Y = Y'.
Proof.
  unfold qq_curve. destruct eO.
  - intros (-> & ->) (-> & ->). auto.
  - intros (S1 & P1 & S2 & P2) (S3 & P3 & S4 & P4). split; apply sorted_unique; auto; etransitivity; eauto; symmetry; auto.
Qed.

Lemma c173 p eO eF num pars d fs : ordinary p -> shaped d fs -> zlen eO = zlen eF -> Z.even num = true ->
  (forall t y x, 0 <= t < d_t d -> 0 <= y < d_y d -> 0 <= x < d_x d -> exists l X Y, pars t y x = pair_values l /\ qq_curve eO eF l X Y /\ X <> [] /\ qsorted X) ->
  exists out, qq_calibrator p (map Fin eO) (map Fin eF) num pars d fs = Ok out /\ shaped d out /\
    forall t y x e v, 0 <= t < d_t d -> within d y x e -> element fs t y x e v -> exists w, element out t y x e w /\
      forall l X Y, pars t y x = pair_values l -> qq_curve eO eF l X Y ->
        (~ (no_missing X /\ no_missing Y) -> w = v) /\
        (no_missing X -> no_missing Y ->
          (missing v -> w = Fin missing_number) /\
          (forall q, v = Fin q -> q <> missing_number -> qq_defined p X q -> (p = Zero -> 2 <= zlen X) -> exists r, w = Fin r /\ qq_rule p X Y q r)).
Proof.
  intros HO HS HE HN HP. unfold qq_calibrator. rewrite !zlen_map. replace (zlen eO =? zlen eF) with true by lia. cbn [negb].
  replace (Z.rem num 2 =? 0) with true. 2:{ apply Z.even_spec in HN as [k ->]. rewrite Z.mul_comm, Z.rem_mul by lia. reflexivity. } cbn [negb].
  apply (elementwise d fs (fun t f i j e => qq_element p (map Fin eO) (map Fin eF) (pars t i j) f i j e)); auto.
  intros t f0 Ht Hf Sf f y x e v Sf' W Hv0 Hv. destruct W as (Wy & Wx & We).
  destruct (HP t y x Ht Wy Wx) as (l & X & Y & El & HC & NE & SX). destruct (separate_ok eO eF l HE) as (X' & Y' & Es & HC' & HL & _).
  destruct (qq_curve_fun _ _ _ _ _ _ _ HC' HC) as (-> & ->). unfold qq_element. rewrite El, Es. cbn [bind]. rewrite zlen_map. pose proof (zlen_pos' X NE) as HX. replace (zlen Y <? 1) with false by lia.
  assert (FUN : forall l0 X0 Y0, pair_values l = pair_values l0 -> qq_curve eO eF l0 X0 Y0 -> X0 = X /\ Y0 = Y).
  { intros l0 X0 Y0 H1 H2. apply pair_values_inj in H1 as <-. exact (qq_curve_fun _ _ _ _ _ _ _ H2 HC). }
  destruct (forallb cvalid (map Fin Y) && forallb cvalid (map Fin X)) eqn:V.
  - apply andb_true_iff in V as (VY & VX). apply all_valid in VY, VX. rewrite Hv. cbn [bind]. destruct (cvalid v) eqn:C.
    + apply cvalid_true in C as (q & -> & nq). destruct (qq_value_ok p X Y q HO SX NE HL VX) as (w & Ew & R). rewrite Ew. cbn [bind]. left. exists w. split; [reflexivity|]. exists (Fin q). split; [exact Hv0|].
      intros l0 X0 Y0 H1 H2. destruct (FUN _ _ _ H1 H2) as (-> & ->). split; [tauto|]. intros _ _. split; [intros M; cbn in M; contradiction|]. intros q' [= <-] _. exact R.
    + left. exists CMV. split; [reflexivity|]. exists v. split; [exact Hv0|]. intros l0 X0 Y0 H1 H2. destruct (FUN _ _ _ H1 H2) as (-> & ->). split; [tauto|]. intros _ _. split; [reflexivity|].
      intros q -> n. rewrite cvalid_Fin in C by auto. discriminate.
  - right. split; [reflexivity|]. exists v. split; [exact Hv0|]. intros l0 X0 Y0 H1 H2. destruct (FUN _ _ _ H1 H2) as (-> & ->). split; [reflexivity|]. intros VX VY. exfalso.
    apply all_valid in VX, VY. rewrite VX, VY in V. discriminate.
Qed.
Lemma bracket_tight X x a b : S_CUtil.increasing X -> bracket X x a b -> a < b -> b = a + 1.
Proof.
  intros HI (Hab & Hbn & HJ) L. destruct (Z.eq_dec b (a + 1)); auto. exfalso. assert (H : (qnth X a < qnth X (a + 1))%Qc) by (apply increasing_nth; auto; lia).
  destruct (HJ a ltac:(lia)) as (_ & F & _). destruct (HJ (a + 1) ltac:(lia)) as (_ & F' & _). rewrite F, F' in H by lia. qlra.
Qed.
Lemma curve_interp X Y x a b r : S_CUtil.increasing X -> bracket X x a b -> S_CUtil.curve_value X Y x a b r -> interp_rule X Y x a b r.
Proof.
  intros HI B R. pose proof (bracket_tight X x a b HI B) as Ht. destruct B as (Hab & Hbn & _). unfold S_CUtil.curve_value in R; cbv zeta in R. destruct R as (R1 & R2 & R3 & R4).
  assert (HM2 : forall u, ((u + u) / (1 + 1) = u)%Qc) by (intros u; field; discriminate).
  unfold interp_rule; cbv zeta. repeat split; intros; auto.
  - rewrite R3 by auto. specialize (Ht ltac:(auto)). replace (b - 1) with a by lia. rewrite HM2. f_equal; lia.
  - rewrite R3 by auto. specialize (Ht ltac:(auto)). replace (b - 1) with a by lia. rewrite HM2. f_equal; lia.
Qed.
Lemma bracket_at X k : S_CUtil.increasing X -> 0 <= k < zlen X -> bracket X (qnth X k) k (k + 1).
Proof.
  intros HI Hk. split; [lia|]. split; [lia|]. intros j Hj. split; [|split]; intros H.
  - apply increasing_nth; auto; lia.
  - f_equal. lia.
  - apply increasing_nth; auto; lia.
Qed.
Lemma rule_curve p X Y x r : S_CUtil.increasing X -> X <> [] -> zlen X = zlen Y -> ordinary p -> qq_rule p X Y x r -> S_Curve.curve_value X Y p p x r.
Proof.
  intros HI NE HL HO (R1 & R2 & R3). pose proof (zlen_pos' X NE) as HN. assert (DU : p <> Unchanged) by (destruct HO as [->|[->|[->| ->]]]; discriminate).
  assert (HM2 : forall u, ((u + u) / (1 + 1) = u)%Qc) by (intros u; field; discriminate).
  assert (K : forall k, 0 <= k < zlen X -> r = qnth Y k -> x = qnth X k -> exists a b, bracket X x a b /\ interp_rule X Y x a b r).
  { intros k Hk -> ->. exists k, (k + 1). pose proof (bracket_at X k HI Hk) as B. split; [exact B|]. apply curve_interp; auto. unfold S_CUtil.curve_value; cbv zeta.
    split; [intros; lia|]. split; [intros; lia|]. split; [intros _; replace (k + 1 - 1) with k by lia; rewrite HM2; reflexivity|intros; lia]. }
  unfold S_Curve.curve_value; cbv zeta. split; [|split; [|split; [|split]]]; try (intros; contradiction).
  - intros (L0 & L1). destruct (Qc_eq_dec x (qnth X 0)) as [E|E].
    + destruct (R2 ltac:(rewrite E; apply Qcle_refl)) as (s & _ & ->). apply (K 0); [lia| |exact E]. rewrite E. ring.
    + assert (L : (qnth X 0 < x)%Qc) by (apply Qcle_lt_or_eq in L0 as [?|?]; [assumption|congruence]). destruct (Qc_eq_dec x (qnth X (zlen X - 1))) as [E'|E'].
      * destruct (R3 L ltac:(rewrite <- E'; apply Qcle_refl)) as (s & _ & ->). apply (K (zlen X - 1)); [lia| |exact E']. rewrite E' at 1. ring.
      * destruct R1 as (a & b & B & C). { split; [exact L|]. apply Qcle_lt_or_eq in L1 as [?|?]; [assumption|congruence]. } exists a, b. split; [exact B|]. apply curve_interp; auto.
  - intros L _. apply R2. qlra.
  - intros L _. assert (H : (qnth X 0 <= qnth X (zlen X - 1))%Qc) by (apply qnth_mono; [apply P_CUtil.increasing_sorted; exact HI|lia|lia]). apply R3; qlra.
Qed.
Lemma qq_defined_inc p X x : S_CUtil.increasing X -> X <> [] -> ordinary p -> qq_defined p X x.
Proof. intros HI NE HO. split; intros; apply slope_ordinary; auto. Qed.

(** all points have increasing forecasts, and no missing parameters *)
Lemma c174 p eO eF num pars d fs : ordinary p -> shaped d fs -> zlen eO = zlen eF -> Z.even num = true ->
  (forall t y x, 0 <= t < d_t d -> 0 <= y < d_y d -> 0 <= x < d_x d -> exists l X Y, pars t y x = pair_values l /\ qq_curve eO eF l X Y /\ S_CUtil.increasing X /\ qsorted Y /\ no_missing X /\ no_missing Y /\ 2 <= zlen X) ->
  exists out, qq_calibrator p (map Fin eO) (map Fin eF) num pars d fs = Ok out /\ shaped d out /\
    forall t y x e e' q q', 0 <= t < d_t d -> within d y x e -> within d y x e' -> element fs t y x e (Fin q) -> element fs t y x e' (Fin q') -> q <> missing_number -> q' <> missing_number ->
      (q <= q')%Qc -> exists r r', element out t y x e (Fin r) /\ element out t y x e' (Fin r') /\ (r <= r')%Qc.
Proof.
  intros HO HS HE HN HP. destruct (c173 p eO eF num pars d fs HO HS HE HN) as (out & E & S & G).
  { intros t y x Ht Hy Hx. destruct (HP t y x Ht Hy Hx) as (l & X & Y & H1 & H2 & H3 & H4 & H5 & H6 & H7). exists l, X, Y. split; [exact H1|]. split; [exact H2|]. split; [intros ->; change (zlen []) with 0 in H7; lia|apply P_CUtil.increasing_sorted; exact H3]. }
  exists out. split; [exact E|]. split; [exact S|]. intros t y x e e' q q' Ht W W' Hq Hq' nq nq' L.
  destruct (HP t y x Ht (proj1 W) (proj1 (proj2 W))) as (l & X & Y & H1 & H2 & H3 & H4 & H5 & H6 & H7). assert (NE : X <> []) by (intros ->; change (zlen []) with 0 in H7; lia).
  destruct (G t y x e (Fin q) Ht W Hq) as (w & Hw & R). destruct (R l X Y H1 H2) as (_ & R'). destruct (R' H5 H6) as (_ & R2). destruct (R2 q eq_refl nq (qq_defined_inc p X q H3 NE HO) (fun _ => H7)) as (r & -> & Q).
  destruct (G t y x e' (Fin q') Ht W' Hq') as (w' & Hw' & R3). destruct (R3 l X Y H1 H2) as (_ & R4). destruct (R4 H5 H6) as (_ & R5). destruct (R5 q' eq_refl nq' (qq_defined_inc p X q' H3 NE HO) (fun _ => H7)) as (r' & -> & Q').
  exists r, r'. split; [exact Hw|]. split; [exact Hw'|]. assert (HL : zlen X = zlen Y).
  { destruct (separate_ok eO eF l HE) as (X' & Y' & _ & HC & HL & _). destruct (qq_curve_fun _ _ _ _ _ _ _ HC H2) as (-> & ->). exact HL. }
  eapply (curve_value_mono X Y p p q q'); eauto using rule_curve.
Qed.
Lemma rule_identity p X x r : ordinary p -> p <> Zero -> qsorted X -> X <> [] -> qq_defined p X x -> qq_rule p X X x r -> r = x.
Proof.
  intros HO NZ SX NE (D1 & D2) (R1 & R2 & R3). pose proof (zlen_pos' X NE) as HN.
  assert (SL : forall below s, slope_defined p X below -> end_slope p X X below s -> s = 1%Qc).
  { intros below s D H. assert (U : forall a b : Qc, (a < b)%Qc -> ((b - a) / (b - a) = 1)%Qc). { intros a b L. field. intros K. apply (Qclt_not_eq _ _ L). transitivity (b - (b - a))%Qc; [ring|rewrite K; ring]. }
    destruct HO as [->|[->|[->| ->]]]; cbn in D, H; [exact H| | |congruence].
    - destruct (Z.eqb_spec (zlen X) 1); [exact H|]. destruct D as [D|D]; [contradiction|]. rewrite H. apply U, D.
    - destruct (Z.eqb_spec (zlen X) 1); [exact H|]. destruct D as [D|D]; [contradiction|]. destruct below; rewrite H; apply U, D. }
  destruct (Qclt_le_dec (qnth X 0) x) as [L0|L0].
  - destruct (Qclt_le_dec x (qnth X (zlen X - 1))) as [L1|L1].
    + destruct (R1 (conj L0 L1)) as (a & b & (Hab & Hbn & HJ) & (C1 & C2 & C3 & C4)). destruct (Z_lt_le_dec a b) as [L|L].
      * rewrite C3 by auto. destruct (HJ a ltac:(lia)) as (_ & F & _). destruct (HJ (b - 1) ltac:(lia)) as (_ & F' & _). rewrite F, F' by lia. field. discriminate.
      * assert (a = b) as <- by lia. assert (a <> 0). { intros ->. destruct (HJ 0 ltac:(lia)) as (_ & _ & F3). specialize (F3 ltac:(lia)). clear - F3 L0. qlra. }
        assert (a <> zlen X). { intros K. destruct (HJ (zlen X - 1) ltac:(lia)) as (F1 & _ & _). specialize (F1 ltac:(lia)). clear - F1 L1. qlra. }
        rewrite C4 by lia. destruct (HJ (a - 1) ltac:(lia)) as (F1 & _ & _). specialize (F1 ltac:(lia)). destruct (HJ a ltac:(lia)) as (_ & _ & F3). specialize (F3 ltac:(lia)).
        field. intros K. assert (L2 : (qnth X (a - 1) < qnth X a)%Qc) by (clear - F1 F3; qlra). apply (Qclt_not_eq _ _ L2). transitivity (qnth X a - (qnth X a - qnth X (a - 1)))%Qc; [ring|rewrite K; ring].
    + destruct (R3 L0 L1) as (s & Hs & ->). rewrite (SL false s (D2 L0 L1) Hs). ring.
  - destruct (R2 L0) as (s & Hs & ->). rewrite (SL true s (D1 L0) Hs). ring.
Qed.
Lemma c175 p num pars d fs : ordinary p -> p <> Zero -> shaped d fs -> Z.even num = true ->
  (forall t y x, 0 <= t < d_t d -> 0 <= y < d_y d -> 0 <= x < d_x d -> exists X, pars t y x = pair_values (combine X X) /\ qsorted X /\ X <> []) ->
  exists out, qq_calibrator p [] [] num pars d fs = Ok out /\ shaped d out /\
    forall t y x e q X, 0 <= t < d_t d -> within d y x e -> element fs t y x e (Fin q) -> pars t y x = pair_values (combine X X) -> qq_defined p X q -> element out t y x e (Fin q).
Proof.
  intros HO NZ HS HN HP. assert (C1 : forall X : list Qc, map fst (combine X X) = X /\ map snd (combine X X) = X).
  { induction X as [|c X [I1 I2]]; [split; reflexivity|]. cbn. rewrite I1, I2. auto. }
  destruct (c173 p [] [] num pars d fs HO HS eq_refl HN) as (out & E & S & G).
  { intros t y x Ht Hy Hx. destruct (HP t y x Ht Hy Hx) as (X & H1 & H2 & H3). exists (combine X X), X, X. split; [exact H1|]. destruct (C1 X) as (-> & ->) || idtac. split; [cbn; destruct (C1 X) as (-> & ->); auto|]. auto. }
  exists out. split; [exact E|]. split; [exact S|]. intros t y x e q X Ht W Hq HX HD. destruct (G t y x e (Fin q) Ht W Hq) as (w & Hw & R).
  destruct (HP t y x Ht (proj1 W) (proj1 (proj2 W))) as (X' & H1 & SX & NE). assert (X' = X) as ->. { rewrite HX in H1. apply pair_values_inj in H1. destruct (C1 X) as (<- & _). destruct (C1 X') as (<- & _). rewrite H1. reflexivity. }
  destruct (R (combine X X) X X HX) as (RM & RV); [cbn; destruct (C1 X) as (-> & ->); auto|].
  destruct (Forall_dec (fun q => q <> missing_number) (fun q => match Qc_eq_dec q missing_number with left e => right (fun n => n e) | right n => left n end) X) as [NM|NM].
  - destruct (RV NM NM) as (RM' & RV'). destruct (Qc_eq_dec q missing_number) as [->|nq]; [rewrite <- (RM' eq_refl); exact Hw|].
    destruct (RV' q eq_refl nq HD) as (r & -> & Q); [congruence|]. rewrite (rule_identity p X q r HO NZ SX NE HD Q) in Hw. exact Hw.
  - rewrite (RM (fun K => NM (proj1 K))) in Hw. exact Hw.
Qed.
(** training *)
Lemma qq_train_pair E x a b : qq_train_step E (map Fin a, map Fin b) x = Ok (map Fin (a ++ map fst (training_pair x)), map Fin (b ++ map snd (training_pair x))).
Proof.
  unfold qq_train_step. destruct x as [obs ens]. cbn [fst snd]. destruct (stat_spec E ens CMean (qz 0)) as (w & Ew & S1 & S2); [discriminate|]. change (fz 0) with (Fin (qz 0)). rewrite Ew. cbn [bind].
  unfold training_pair. cbn [fst snd]. destruct (cvalid obs) eqn:C; cbn [andb].
  2:{ rewrite present_cons. replace (match obs with Fin q => _ | _ => _ end) with (@nil Qc); [cbn; rewrite !app_nil_r; reflexivity|]. destruct obs; auto. destruct (Qc_eq_dec q missing_number); auto. rewrite cvalid_Fin in C by auto. discriminate. }
  apply cvalid_true in C as (o & -> & no). rewrite present_cons. destruct (Qc_eq_dec o missing_number); [contradiction|]. change (present []) with (@nil Qc).
  destruct (list_eq_dec Qc_eq_dec (present ens) []) as [N|N].
  { rewrite (S1 N). change (cvalid (Fin missing_number)) with false. cbn [map]. rewrite !app_nil_r. reflexivity. }
  destruct (S2 N) as (r & -> & ->). destruct (Qc_eq_dec (qmean (present ens)) missing_number) as [M|M].
  { rewrite M. change (cvalid (Fin missing_number)) with false. cbn [map]. rewrite !app_nil_r. reflexivity. }
  rewrite cvalid_Fin by auto. cbn [map fst snd]. rewrite !map_app. reflexivity.
Qed.
Lemma qq_train_fold E data : forall a b, foldM (qq_train_step E) (map Fin a, map Fin b) data = Ok (map Fin (a ++ map fst (training_pairs data)), map Fin (b ++ map snd (training_pairs data))).
Proof.
  induction data as [|x data IH]; intros a b; cbn [foldM training_pairs flat_map map]; [rewrite !app_nil_r; reflexivity|].
  rewrite qq_train_pair. cbn [bind]. rewrite IH. fold (training_pairs data). rewrite !map_app, <- !app_assoc. reflexivity.
Qed.
Definition levels (N : Z) : list Qc := map (fun i => qz i / qz (N - 1))%Qc (zrange 0 N).
Lemma levels_nth N i : 0 <= i < N -> qnth (levels N) i = (qz i / qz (N - 1))%Qc.
Proof.
  intros H. pose proof (znth_map_zrange (fun i => qz i / qz (N - 1))%Qc 0 N i ltac:(lia)) as K. fold (levels N) in K. rewrite Z.add_0_l in K.
  rewrite qnth_znth in K by (unfold levels; rewrite zlen_map, zlen_zrange; lia). congruence.
Qed.
Lemma qmul_nonneg (a b : Qc) : (0 <= a -> 0 <= b -> 0 <= a * b)%Qc.
Proof. intros Ha Hb. replace 0%Qc with (0 * b)%Qc by ring. apply Qcmult_le_compat_r; auto. Qed.
Lemma qz_pos n : 0 < n -> (0 < qz n)%Qc.
Proof. intros H. change 0%Qc with (qz 0). apply qz_lt. exact H. Qed.
Lemma div_lt_iff (a b c : Qc) : (0 < c)%Qc -> (a / c < b)%Qc -> (a < b * c)%Qc.
Proof. intros Hc H. replace a with (a / c * c)%Qc by (field; intros ->; apply (Qclt_not_eq _ _ Hc); reflexivity). apply Qcmult_lt_compat_r; auto. Qed.
Lemma lt_div_iff (a b c : Qc) : (0 < c)%Qc -> (b < a / c)%Qc -> (b * c < a)%Qc.
Proof. intros Hc H. replace a with (a / c * c)%Qc by (field; intros ->; apply (Qclt_not_eq _ _ Hc); reflexivity). apply Qcmult_lt_compat_r; auto. Qed.
Lemma div_lt (a b c : Qc) : (0 < c)%Qc -> (a < b)%Qc -> (a / c < b / c)%Qc.
Proof.
  intros Hc H. apply Qcnot_le_lt. intros K. assert (K' : (b / c * c <= a / c * c)%Qc) by (apply Qcmult_le_compat_r; [exact K|apply Qclt_le_weak; exact Hc]).
  assert (c <> 0%Qc) by (intros ->; apply (Qclt_not_eq _ _ Hc); reflexivity). replace (b / c * c)%Qc with b in K' by (field; auto). replace (a / c * c)%Qc with a in K' by (field; auto). qlra.
Qed.
Lemma levels_increasing N : 2 <= N -> S_CUtil.increasing (levels N).
Proof.
  intros H. unfold levels, S_CUtil.increasing. assert (HP : (0 < qz (N - 1))%Qc) by (apply qz_pos; lia).
  assert (G : forall l, StronglySorted Z.lt l -> StronglySorted Qclt (map (fun i => qz i / qz (N - 1))%Qc l)).
  { induction 1 as [|i l Hs IH Hf]; cbn [map]; constructor; auto. apply Forall_forall. intros z Hz. apply in_map_iff in Hz as (j & <- & Hj). rewrite Forall_forall in Hf. apply Hf in Hj. apply div_lt; auto. apply qz_lt. exact Hj. }
  apply G. clear. unfold zrange. rewrite Z.sub_0_r. generalize (Z.to_nat N). intros n. generalize 0 at 1. intros k. rewrite <- (map_map (fun i => Z.of_nat i) (fun i => k + i)).
  assert (K : forall n s, StronglySorted Z.lt (map (fun i => k + i) (map Z.of_nat (seq s n)))).
  { induction n0 as [|m IH]; intros s; cbn; constructor; auto. rewrite map_map. apply Forall_forall. intros z Hz. apply in_map_iff in Hz as (j & <- & Hj). apply in_seq in Hj. lia. }
  apply K.
Qed.
Lemma levels_quantile (s : list Qc) (q : Qc) : qsorted s -> 2 <= zlen s -> (0 <= q <= 1)%Qc ->
  client_interpolate (Fin q) (map Fin (levels (zlen s))) (map Fin s) = Ok (Fin (lerp_at s (q * qz (zlen s - 1))%Qc)).
Proof.
  intros SS HN (Q0 & Q1). set (N := zlen s) in *. assert (LL : zlen (levels N) = N) by (unfold levels; rewrite zlen_map, zlen_zrange; lia).
  assert (HP : (0 < qz (N - 1))%Qc) by (apply qz_pos; lia). assert (HP0 : qz (N - 1) <> 0%Qc) by (intros K; rewrite K in HP; apply (Qclt_not_eq _ _ HP); reflexivity).
  pose proof (levels_increasing N HN) as HI. assert (NE : levels N <> []) by (intros K; rewrite K in LL; change (zlen []) with 0 in LL; lia).
  destruct (c145_value q (levels N) s (P_CUtil.increasing_sorted _ HI) NE LL) as (a & b & r & B & E & R).
  { apply Forall_forall. intros z Hz. unfold levels in Hz. apply in_map_iff in Hz as (i & <- & Hi). apply in_zrange in Hi. intros K. assert (H : (0 <= qz i / qz (N - 1))%Qc).
    { unfold Qcdiv. apply qmul_nonneg; [change 0%Qc with (qz 0); apply qz_le; lia|apply Qclt_le_weak, P_NScore.qinv_pos; auto]. } rewrite K in H. revert H. vm_compute. congruence. }
  rewrite E. do 2 f_equal. pose proof (bracket_tight _ _ _ _ HI B) as HT. destruct B as (Hab & Hbn & HJ). rewrite LL in *. unfold S_CUtil.curve_value in R; cbv zeta in R. rewrite LL in R. destruct R as (R1 & R2 & R3 & R4).
  assert (HM2 : forall u, ((u + u) / (1 + 1) = u)%Qc) by (intros u; field; discriminate).
  destruct (Z_lt_le_dec a b) as [L|L].
  - specialize (HT L). rewrite R3 by auto. replace (b - 1) with a by lia. rewrite HM2. destruct (HJ a ltac:(lia)) as (_ & F & _). specialize (F ltac:(lia)). rewrite levels_nth in F by lia.
    assert (EP : (q * qz (N - 1) = qz a)%Qc) by (rewrite <- F; field; exact HP0). rewrite EP. unfold lerp_at. assert (EF : Qfloor (qz a) = a) by (apply qfloor_unique; split; clear; qlra).
    rewrite EF. ring.
  - assert (a = b) as <- by lia. assert (a <> 0). { intros ->. destruct (HJ 0 ltac:(lia)) as (_ & _ & F3). specialize (F3 ltac:(lia)). rewrite levels_nth in F3 by lia. apply lt_div_iff in F3; auto. change (qz 0) with 0%Qc in F3. assert ((0 <= q * qz (N - 1))%Qc) by (apply qmul_nonneg; [exact Q0|apply Qclt_le_weak; exact HP]). qlra. }
    assert (a <> N). { intros K. destruct (HJ (N - 1) ltac:(lia)) as (F1 & _ & _). specialize (F1 ltac:(lia)). rewrite levels_nth in F1 by lia. replace (qz (N - 1) / qz (N - 1))%Qc with 1%Qc in F1 by (field; exact HP0). qlra. }
    rewrite R4 by lia. destruct (HJ (a - 1) ltac:(lia)) as (F1 & _ & _). specialize (F1 ltac:(lia)). destruct (HJ a ltac:(lia)) as (_ & _ & F3). specialize (F3 ltac:(lia)). rewrite levels_nth in * by lia. rewrite !levels_nth by lia.
    apply div_lt_iff in F1; auto. apply lt_div_iff in F3; auto. unfold lerp_at. assert (EF : Qfloor (q * qz (N - 1))%Qc = a - 1) by (apply qfloor_unique; split; [apply Qclt_le_weak; exact F1|rewrite <- qz_1, <- qz_add; replace (a - 1 + 1) with a by lia; exact F3]).
    rewrite EF. replace (a - 1 + 1) with a by lia. assert (EA : qz a = (qz (a - 1) + 1)%Qc) by (rewrite <- qz_1, <- qz_add; f_equal; lia). rewrite EA. field. split; [exact HP0|]. intros K. change {| this := 1; canon := Qred_involutive 1 |} with 1%Qc in K. clear - K. qlra.
Qed.
Lemma interleave_pairs a : forall b, interleave (map Fin a) (map Fin b) = pair_values (combine a b).
Proof. induction a as [|x a IH]; intros [|y b]; try reflexivity. unfold pair_values in *. cbn. rewrite IH. reflexivity. Qed.
Lemma combine_fst (a : list Qc) : forall b : list Qc, zlen a = zlen b -> map fst (combine a b) = a /\ map snd (combine a b) = b.
Proof.
  induction a as [|x a IH]; intros [|y b] H; [split; reflexivity| | |].
  1,2: exfalso; rewrite zlen_cons in H; change (zlen []) with 0 in H; match type of H with context [zlen ?m] => pose proof (zlen_nonneg m) end; lia.
  rewrite !zlen_cons in H.
  destruct (IH b ltac:(lia)) as (I1 & I2). cbn. rewrite I1, I2. auto.
Qed.
Lemma c176 E quantiles eO eF data : let l := training_pairs data in zlen eO = zlen eF -> Forall (fun q => (0 <= q <= 1)%Qc) quantiles -> quantiles = [] \/ zlen l <> 1 ->
  exists b X Y, qq_kept quantiles l b /\ qq_curve eO eF b X Y /\ zlen X = zlen Y /\
    qq_train E (map Fin quantiles) (map Fin eO) (map Fin eF) data = Ok (pair_values (combine Y X)).
Proof.
  intros l HE HQ HL1. unfold qq_train. rewrite !zlen_map. replace (zlen eO =? zlen eF) with true by lia. cbn [negb]. pose proof (qq_train_fold E data [] []) as F. cbn [map app] in F. rewrite F. clear F. cbn [bind]. fold l.
  rewrite !std_sort_map. cbn [bind]. rewrite !zlen_map, zlen_qsort, zlen_map. set (so := qsort (map fst l)). set (sf := qsort (map snd l)).
  assert (LO : zlen so = zlen l) by (unfold so; rewrite zlen_qsort, zlen_map; reflexivity). assert (LF : zlen sf = zlen l) by (unfold sf; rewrite zlen_qsort, zlen_map; reflexivity).
  assert (K : exists b, qq_kept quantiles l b /\
     (if zlen l =? 0 then Ok ([], []) else if 0 <? zlen quantiles then
       let x := map (fun i => vdiv (fz i) (fz (zlen l - 1))) (zrange 0 (zlen l)) in
       obsQ <- mapM (fun q => client_interpolate q x (map Fin so)) (map Fin quantiles) ;;
       fcstQ <- mapM (fun q => client_interpolate q x (map Fin sf)) (map Fin quantiles) ;; Ok (obsQ, fcstQ)
     else Ok (map Fin so, map Fin sf)) = Ok (map Fin (map fst b), map Fin (map snd b))).
  { destruct quantiles as [|q0 qs].
    - exists (combine so sf). destruct (combine_fst so sf ltac:(lia)) as (C1 & C2). split; [cbn; rewrite C1, C2; repeat split; try apply sorted_qsort; apply perm_qsort|]. rewrite C1, C2. destruct (Z.eqb_spec (zlen l) 0) as [E0|E0].
      + destruct l; [reflexivity|]. rewrite zlen_cons in E0. pose proof (zlen_nonneg l). lia.
      + reflexivity.
    - destruct HL1 as [?|HL1]; [discriminate|]. destruct (Z.eqb_spec (zlen l) 0) as [E0|E0].
      + exists []. split; [|reflexivity]. destruct l; [reflexivity|]. rewrite zlen_cons in E0. pose proof (zlen_nonneg l). lia.
      + assert (HN : 2 <= zlen l) by (pose proof (zlen_nonneg l); lia). rewrite zlen_cons. pose proof (zlen_nonneg qs). replace (0 <? zlen qs + 1) with true by lia. cbv zeta.
        assert (EX : map (fun i => vdiv (fz i) (fz (zlen l - 1))) (zrange 0 (zlen l)) = map Fin (levels (zlen l))).
        { unfold levels. rewrite map_map. apply map_ext. intros i. apply vdiv_ne. intros Z0. change 0%Qc with (qz 0) in Z0. apply qz_inj in Z0. lia. }
        rewrite EX. set (Q := q0 :: qs) in *. assert (HQ' : forall q, In q Q -> (0 <= q <= 1)%Qc) by (apply Forall_forall; exact HQ).
        assert (MM : forall s, qsorted s -> zlen s = zlen l -> mapM (fun q => client_interpolate q (map Fin (levels (zlen l))) (map Fin s)) (map Fin Q) = Ok (map Fin (map (fun q => lerp_at s (q * qz (zlen l - 1))%Qc) Q))).
        { intros s Ss Ls. revert HQ'. generalize Q. clear - Ss Ls HN. induction Q as [|q Q IH]; intros HQ'; [reflexivity|]. cbn [map mapM]. rewrite <- Ls at 1. rewrite levels_quantile by (auto; try lia; apply HQ'; left; reflexivity). cbn [bind]. rewrite IH by (intros; apply HQ'; right; auto). cbn [bind]. rewrite Ls. reflexivity. }
        rewrite (MM so), (MM sf) by (auto; apply sorted_qsort). cbn [bind].
        exists (map (fun q => (lerp_at so (q * qz (zlen l - 1)), lerp_at sf (q * qz (zlen l - 1)))%Qc) Q). split; [|rewrite !map_map; reflexivity].
        assert (QK : Forall2 (fun q p => is_quantile (map fst l) q (fst p) /\ is_quantile (map snd l) q (snd p)) Q (map (fun q => (lerp_at so (q * qz (zlen l - 1)), lerp_at sf (q * qz (zlen l - 1)))%Qc) Q)).
        { clearbody Q. clear. induction Q as [|q Q IH]; constructor; auto. cbn [fst snd]. split; [exists so|exists sf]; rewrite zlen_map; (split; [apply perm_qsort|]; split; [apply sorted_qsort|reflexivity]). }
        unfold qq_kept. fold Q in QK |- *. unfold Q at 1. cbv beta iota. revert E0 QK. clearbody Q. clear. destruct l as [|p l]; [intros E0; exfalso; apply E0; reflexivity|]. intros _ QK. exact QK. }
  destruct K as (b & HK & EK). cbv zeta in EK |- *. rewrite EK. cbn [bind]. rewrite <- !map_app, !std_sort_map. cbn [bind]. rewrite !interleave_pairs.
  exists b. destruct eO as [|o eO].
  - change (0 <? zlen []) with false. cbv iota. exists (map snd b), (map fst b). split; [exact HK|]. split; [split; reflexivity|]. split; [rewrite !zlen_map; reflexivity|reflexivity].
  - rewrite zlen_cons in *. pose proof (zlen_nonneg eO). replace (0 <? zlen eO + 1) with true by lia. exists (qsort (map snd b ++ eF)), (qsort (map fst b ++ o :: eO)). split; [exact HK|].
    split; [cbn; repeat split; try apply sorted_qsort; apply perm_qsort|]. split; [rewrite !zlen_qsort, !zlen_app, !zlen_map, zlen_cons; lia|reflexivity].
Qed.
Lemma training_present data p : In p (training_pairs data) -> fst p <> missing_number /\ snd p <> missing_number.
Proof.
  unfold training_pairs. rewrite in_flat_map. intros ([obs ens] & _ & H). unfold training_pair in H. cbn [fst snd] in H. rewrite present_cons in H. change (present []) with (@nil Qc) in H.
  destruct obs; try contradiction. destruct (Qc_eq_dec q missing_number); try contradiction. destruct (list_eq_dec Qc_eq_dec (present ens) []); try contradiction. destruct (Qc_eq_dec (qmean (present ens)) missing_number); try contradiction.
  destruct H as [<-|[]]. auto.
Qed.
Lemma sorted_increasing X : qsorted X -> NoDup X -> S_CUtil.increasing X.
Proof.
  induction 1 as [|c X HX IH HF]; intros ND; constructor; inversion ND; subst; auto; [apply IH; auto|]. apply Forall_forall. intros y Hy. rewrite Forall_forall in HF. specialize (HF y Hy). apply Qcle_lt_or_eq in HF as [HF|HF]; [assumption|subst; contradiction].
Qed.
Lemma rule_at p X Y k r : S_CUtil.increasing X -> 0 <= k < zlen X -> qq_rule p X Y (qnth X k) r -> r = qnth Y k.
Proof.
  intros HI Hk (R1 & R2 & R3). destruct (Z.eq_dec k 0) as [->|K0]; [destruct (R2 (Qcle_refl _)) as (s & _ & ->); ring|].
  assert (L0 : (qnth X 0 < qnth X k)%Qc) by (apply increasing_nth; auto; lia). destruct (Z.eq_dec k (zlen X - 1)) as [->|K1]; [destruct (R3 L0 (Qcle_refl _)) as (s & _ & ->); ring|].
  destruct R1 as (a & b & B & (_ & _ & C3 & _)); [split; [exact L0|apply increasing_nth; auto; lia]|]. destruct (bracket_unique _ _ _ _ _ _ B (bracket_at X k HI Hk)) as (-> & ->).
  rewrite C3 by lia. replace (k + 1 - 1) with k by lia. field. discriminate.
Qed.
Lemma c177 E data : let l := training_pairs data in l <> [] -> NoDup (map snd l) ->
  exists par X Y, qq_train E [] [] [] data = Ok par /\ qsorted X /\ Permutation X (map snd l) /\ qsorted Y /\ Permutation Y (map fst l) /\
    forall p num d fs, ordinary p -> (p = Zero -> 2 <= zlen l) -> Z.even num = true -> shaped d fs ->
      exists out, qq_calibrator p [] [] num (fun _ _ _ => par) d fs = Ok out /\ shaped d out /\
        forall t y x e k, 0 <= t < d_t d -> within d y x e -> 0 <= k < zlen l -> element fs t y x e (Fin (qnth X k)) -> element out t y x e (Fin (qnth Y k)).
Proof.
  intros l NE ND. destruct (c176 E [] [] [] data eq_refl (Forall_nil _) (or_introl eq_refl)) as (b & X & Y & (K1 & K2 & K3 & K4) & (-> & ->) & HL & ET). fold l in K2, K4.
  exists (pair_values (combine (map fst b) (map snd b))), (map snd b), (map fst b). split; [exact ET|]. repeat split; auto. intros p num d fs HO HZ HN HS.
  assert (LB : zlen (map snd b) = zlen l) by (rewrite <- (zlen_map snd l); unfold zlen; f_equal; apply Permutation_length; exact K4).
  assert (EB : combine (map fst b) (map snd b) = b) by (clear; induction b as [|[u v] b IH]; cbn; [|rewrite IH]; reflexivity). rewrite EB.
  assert (NB : map snd b <> []) by (intros Z0; rewrite Z0 in LB; change (zlen []) with 0 in LB; destruct l; [congruence|]; rewrite zlen_cons in LB; pose proof (zlen_nonneg l); lia).
  assert (IB : S_CUtil.increasing (map snd b)) by (apply sorted_increasing; auto; eapply Permutation_NoDup; [symmetry; exact K4|exact ND]).
  assert (M1 : no_missing (map snd b)). { apply Forall_forall. intros q Hq. apply (Permutation_in _ K4) in Hq. apply in_map_iff in Hq as (u & <- & Hu). apply training_present in Hu. tauto. }
  assert (M2 : no_missing (map fst b)). { apply Forall_forall. intros q Hq. apply (Permutation_in _ K2) in Hq. apply in_map_iff in Hq as (u & <- & Hu). apply training_present in Hu. tauto. }
  destruct (c173 p [] [] num (fun _ _ _ => pair_values b) d fs HO HS eq_refl HN) as (out & EO & SO & G).
  { intros t y x _ _ _. exists b, (map snd b), (map fst b). repeat split; auto. }
  exists out. split; [exact EO|]. split; [exact SO|]. intros t y x e k Ht W Hk Hv. destruct (G t y x e _ Ht W Hv) as (w & Hw & R). destruct (R b (map snd b) (map fst b) eq_refl (conj eq_refl eq_refl)) as (_ & R'). destruct (R' M1 M2) as (_ & R2).
  destruct (R2 (qnth (map snd b) k) eq_refl) as (r & -> & Q).
  - unfold no_missing in M1. rewrite Forall_forall in M1. apply M1. unfold qnth. apply nth_In. unfold zlen in *. lia.
  - apply qq_defined_inc; auto.
  - rewrite LB. exact HZ.
  - rewrite (rule_at p _ _ k r IB ltac:(lia) Q) in Hw. exact Hw.
Qed.
Lemma c173_checks p eO eF num pars d fs : zlen eO <> zlen eF \/ Z.odd num = true -> qq_calibrator p eO eF num pars d fs = Abort.
Proof.
  intros H. unfold qq_calibrator. destruct (Z.eqb_spec (zlen eO) (zlen eF)) as [E|E]; [|reflexivity]. destruct H as [H|H]; [contradiction|]. cbn [negb].
  destruct (Z.eqb_spec (Z.rem num 2) 0) as [R|R]; [|reflexivity]. exfalso. apply Z.rem_divide in R as [k ->]; [|lia]. rewrite Z.odd_mul in H. cbn in H. rewrite andb_false_r in H. discriminate.
Qed.
(** with a single pair "zero" keeps the slope 1; tied forecasts give a slope that is no number *)
Lemma c173_refuted :
  (exists l q w, zlen l = 1 /\ qq_calibrator Zero [] [] 2 (fun _ _ _ => pair_values l) (dims1 1) [field1 (Fin q)] = Ok [field1 w] /\
     no_missing (map fst l) /\ no_missing (map snd l) /\ q <> missing_number /\ forall r, w = Fin r -> ~ qq_rule Zero (map snd l) (map fst l) q r) /\
  (exists l q w, qsorted (map snd l) /\ qsorted (map fst l) /\ zlen l = 2 /\ qq_calibrator MeanSlope [] [] 4 (fun _ _ _ => pair_values l) (dims1 1) [field1 (Fin q)] = Ok [field1 w] /\
     no_missing (map fst l) /\ no_missing (map snd l) /\ q <> missing_number /\ w = PInf).
Proof.
  split.
  - exists [(qz 1, qz 5)], (qz 7), (Fin (qz 3)). split; [reflexivity|]. split; [vm_compute; do 5 f_equal; veq|]. split; [repeat constructor; discriminate|]. split; [repeat constructor; discriminate|]. split; [discriminate|].
    intros r [= <-] (_ & _ & R). destruct R as (s & -> & K); [reflexivity|discriminate|]. revert K. vm_compute. congruence.
  - exists [(qz 1, qz 5); (qz 2, qz 5)], (qz 7), PInf. split; [repeat constructor; discriminate|]. split; [repeat constructor; discriminate|]. split; [reflexivity|]. split; [vm_compute; reflexivity|]. split; [repeat constructor; discriminate|]. split; [repeat constructor; discriminate|]. split; [discriminate|reflexivity].
Qed.
Lemma c176_refuted : exists E q data, (0 <= q <= 1)%Qc /\ zlen (training_pairs data) = 1 /\ qq_train E [Fin q] [] [] data = Abort.
Proof. exists E0, (Q2Qc (1#2)), [(fz 1, [fz 5])]. split; [split; discriminate|]. split; vm_compute; reflexivity. Qed.
